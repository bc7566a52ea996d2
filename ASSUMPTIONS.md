# What `Print Assumptions` lists

Written by `tools/assumptions.py` from the compiled theories. 359 theorems; 335 are closed under the global context.

## Theorems that rest on axioms (all of them axioms of the standard library's classical reals)

* `C22_best_rule_successor_cn`: `ClassicalDedekindReals.sig_not_dec`, `ClassicalDedekindReals.sig_forall_dec`, `FunctionalExtensionality.functional_extensionality_dep`, `Classical_Prop.classic`
* `C22_best_successor`: `ClassicalDedekindReals.sig_not_dec`, `ClassicalDedekindReals.sig_forall_dec`, `FunctionalExtensionality.functional_extensionality_dep`, `Classical_Prop.classic`
* `C23_grow_rule_cn`: `ClassicalDedekindReals.sig_not_dec`, `ClassicalDedekindReals.sig_forall_dec`, `FunctionalExtensionality.functional_extensionality_dep`, `Classical_Prop.classic`
* `C23_grow_rule`: `ClassicalDedekindReals.sig_not_dec`, `ClassicalDedekindReals.sig_forall_dec`, `FunctionalExtensionality.functional_extensionality_dep`, `Classical_Prop.classic`
* `C36_description_length`: `ClassicalDedekindReals.sig_not_dec`, `ClassicalDedekindReals.sig_forall_dec`, `FunctionalExtensionality.functional_extensionality_dep`, `Classical_Prop.classic`
* `C36_comparisons`: `ClassicalDedekindReals.sig_not_dec`, `ClassicalDedekindReals.sig_forall_dec`, `FunctionalExtensionality.functional_extensionality_dep`, `Classical_Prop.classic`
* `C37_subset_exact`: `ClassicalDedekindReals.sig_not_dec`, `ClassicalDedekindReals.sig_forall_dec`, `FunctionalExtensionality.functional_extensionality_dep`, `Classical_Prop.classic`
* `C37_mdl_refuted`: `ClassicalDedekindReals.sig_not_dec`, `ClassicalDedekindReals.sig_forall_dec`, `FunctionalExtensionality.functional_extensionality_dep`, `Classical_Prop.classic`
* `C74_dl_allowance`: `ClassicalDedekindReals.sig_not_dec`, `ClassicalDedekindReals.sig_forall_dec`, `FunctionalExtensionality.functional_extensionality_dep`, `Classical_Prop.classic`
* `C74_dl_allowance_df`: `ClassicalDedekindReals.sig_not_dec`, `ClassicalDedekindReals.sig_forall_dec`, `FunctionalExtensionality.functional_extensionality_dep`, `Classical_Prop.classic`
* `C75_only_savings`: `ClassicalDedekindReals.sig_not_dec`, `ClassicalDedekindReals.sig_forall_dec`, `FunctionalExtensionality.functional_extensionality_dep`, `Classical_Prop.classic`
* `C75_only_savings_df`: `ClassicalDedekindReals.sig_not_dec`, `ClassicalDedekindReals.sig_forall_dec`, `FunctionalExtensionality.functional_extensionality_dep`, `Classical_Prop.classic`
* `C75_choice`: `ClassicalDedekindReals.sig_not_dec`, `ClassicalDedekindReals.sig_forall_dec`, `FunctionalExtensionality.functional_extensionality_dep`, `Classical_Prop.classic`
* `C91_irep_training`: `ClassicalDedekindReals.sig_not_dec`, `ClassicalDedekindReals.sig_forall_dec`, `FunctionalExtensionality.functional_extensionality_dep`, `Classical_Prop.classic`
* `C91_fit_is_irep`: `ClassicalDedekindReals.sig_not_dec`, `ClassicalDedekindReals.sig_forall_dec`, `FunctionalExtensionality.functional_extensionality_dep`, `Classical_Prop.classic`
* `C91_run_covers`: `ClassicalDedekindReals.sig_not_dec`, `ClassicalDedekindReals.sig_forall_dec`, `FunctionalExtensionality.functional_extensionality_dep`, `Classical_Prop.classic`
* `C91_run_idle`: `ClassicalDedekindReals.sig_not_dec`, `ClassicalDedekindReals.sig_forall_dec`, `FunctionalExtensionality.functional_extensionality_dep`, `Classical_Prop.classic`
* `C92_ripper_training`: `ClassicalDedekindReals.sig_not_dec`, `ClassicalDedekindReals.sig_forall_dec`, `FunctionalExtensionality.functional_extensionality_dep`, `Classical_Prop.classic`
* `C92_fit_is_ripper`: `ClassicalDedekindReals.sig_not_dec`, `ClassicalDedekindReals.sig_forall_dec`, `FunctionalExtensionality.functional_extensionality_dep`, `Classical_Prop.classic`
* `C92_run_empty`: `ClassicalDedekindReals.sig_not_dec`, `ClassicalDedekindReals.sig_forall_dec`, `FunctionalExtensionality.functional_extensionality_dep`, `Classical_Prop.classic`
* `C92_first_kept`: `ClassicalDedekindReals.sig_forall_dec`
* `C101_ripper_df_training`: `ClassicalDedekindReals.sig_not_dec`, `ClassicalDedekindReals.sig_forall_dec`, `FunctionalExtensionality.functional_extensionality_dep`, `Classical_Prop.classic`
* `C101_fit_is_ripper`: `ClassicalDedekindReals.sig_not_dec`, `ClassicalDedekindReals.sig_forall_dec`, `FunctionalExtensionality.functional_extensionality_dep`, `Classical_Prop.classic`
* `C101_bits`: `ClassicalDedekindReals.sig_not_dec`, `ClassicalDedekindReals.sig_forall_dec`, `FunctionalExtensionality.functional_extensionality_dep`, `Classical_Prop.classic`

## Theorems closed under the global context

* C01: `C01_classifier_predict`, `C01_predict_is_dnf`, `C01_empty_rule_predicts_all`, `C01_empty_ruleset_predicts_none`
* C02: `C02_predict_depends_on_labels_refuted`, `C02_predict_relabel_partial`, `C02_predict_by_label`
* C03: `C03_classifier_reasons`, `C03_reasons_exact`
* C04: `C04_covers_exact`, `C04_covers_condition_order`, `C04_covers_append`, `C04_covers_idempotent`
* C05: `C05_covers_counts_twice_refuted`, `C05_multiplicity`, `C05_num_covered_at_least`, `C05_num_covered_disjoint_partial`
* C06: `C06_missing_feature`, `C06_success_means_present`, `C06_reasons_missing_feature`, `C06_classifier_missing`
* C07: `C07_other_columns_irrelevant`
* C08: `C08_rule_eq_equivalence`, `C08_ruleset_eq_equivalence`, `C08_rule_eq_means`, `C08_ruleset_eq_means`
* C09: `C09_equal_rules_hash_refuted`, `C09_equal_rules_hash_partial`, `C09_permuted_rules_hash`
* C10: `C10_equal_rules_cover_refuted`, `C10_equal_rules_cover_partial`, `C10_equal_rulesets_predict_partial`, `C10_plain_text_is_faithful`
* C11: `C11_print_parse_partial`, `C11_print_parse_refuted`
* C12: `C12_condition_text`, `C12_rule_text`, `C12_ruleset_text`, `C12_bad_condition_rejected`
* C13: `C13_edit_at_index`, `C13_edit_by_value`, `C13_by_value_cases`, `C13_failed_edit_changes_nothing`
* C14: `C14_remove_duplicates`, `C14_remove_duplicates_facts`, `C14_remove_duplicates_predict`
* C15: `C15_trim_longest_prefix`, `C15_trim_none`
* C16: `C16_split_partition`, `C16_second_part_nonempty`, `C16_df_split_partition`, `C16_df_second_part_nonempty`
* C17: `C17_pos_neg_partition`, `C17_missing_class_column`
* C18: `C18_rm_covered_rule`, `C18_rm_covered_ruleset`, `C18_rm_rule_covers_cn`
* C19: `C19_nCr_is_binomial`, `C19_argmin_first_minimum`, `C19_argmin_total`, `C19_i_replaced`
* C20: `C20_catnap_cond`, `C20_catnap_rule`, `C20_catnap_ruleset_partial`, `C20_catnap_empty_subset_refuted`
* C21: `C21_irep_engines_agree_partial`, `C21_irep_engines_differ_refuted`
* C22: `C22_rcov_exact`
* C23: `C23_grow_rule_cn_terminates`, `C23_grow_rule_terminates`, `C23_grow_rule_cn_min_samples`
* C24: `C24_prune_rule`, `C24_prune_empty`, `C24_prune_rule_on_ruleset`, `C24_irep_metric`, `C24_ripper_metric`
* C25: `C25_irep_fit_total`, `C25_irep_training_total`
* C26: `C26_fit_conditions_from_data`, `C26_irep_conditions_from_data`, `C26_irep_rule_covers_positive`, `C26_ripper_conditions_from_data`
* C27: `C27_irep_precision`
* C28: `C28_fit_covers_positives`, `C28_fit_no_false_positives`, `C28_irep_covers_positives`, `C28_irep_no_false_positives`
* C29: `C29_irep_fit_keeps_initial`, `C29_irep_keeps_initial_rules`
* C30: `C30_fit_max_rules`, `C30_irep_max_rules`, `C30_ripper_max_rules`
* C31: `C31_irep_fit_max_rule_conds`, `C31_irep_max_rule_conds`, `C31_ripper_max_rule_conds_partial`, `C31_ripper_max_rule_conds_refuted`
* C32: `C32_fit_max_total_conds`
* C33: `C33_min_rule_samples_partial`, `C33_min_rule_samples_df_partial`, `C33_min_rule_samples_refuted`
* C34: `C34_ripper_fit_total`, `C34_ripper_training_total`
* C35: `C35_no_prune_fit_partial`, `C35_no_prune_refuted`, `C35_no_prune_partial`
* C37: `C37_exceptions_positive`, `C37_mdl_subset`
* C38: `C38_optimisation_in_place`, `C38_optimisation_in_place_df`
* C39: `C39_cover_remaining_df`, `C39_cover_remaining_refuted`
* C40: `C40_classifier_proba`, `C40_probabilities`, `C40_recalibrate_calibrates`, `C40_deleting_keeps_calibrated`
* C41: `C41_classifier_recalibrate`, `C41_recalibrate_counts`, `C41_alpha_zero`
* C42: `C42_classifier_recalibration`, `C42_recalibration_keeps_predictions`
* C43: `C43_classifier_parameters_ignored`, `C43_classifier_refuted`, `C43_require_min_samples_refuted`, `C43_parameters_ignored`
* C44: `C44_classifier_refuted`, `C44_uncalibrated_rule_raises`, `C44_proba_after_edit_refuted`, `C44_proba_after_edit_partial`
* C45: `C45_accuracy`, `C45_precision`, `C45_recall`, `C45_f1`, `C45_length_mismatch`, `C45_counts_are_all`
* C46: `C46_score`, `C46_length_mismatch`
* C47: `C47_rule_stats`
* C48: `C48_label_round_trip`, `C48_labels_injective`
* C49: `C49_pandas_edges`, `C49_gap_refuted`, `C49_training_value_lost_refuted`, `C49_training_value_kept`, `C49_transform_exact`, `C49_every_number_one_bin_partial`
* C50: `C50_numpy_quantiles_partial`, `C50_numpy_fit_refuted`, `C50_numpy_threshold_refuted`, `C50_numpy_convention`, `C50_numpy_bin_partial`, `C50_numpy_limits_near`
* C51: `C51_idempotent_partial`, `C51_idempotent_refuted`, `C51_foreign_bin`, `C51_only_binned_columns`
* C52: `C52_given`, `C52_binary`, `C52_single`, `C52_otherwise_raises`
* C53: `C53_labels_attached_partial`, `C53_list_length_checked`, `C53_series_length_refuted`
* C54: `C54_rebuild_partial`, `C54_min_rule_samples_refuted`
* C55: `C55_fitted_predict_partial`, `C55_selected_features_refuted`
* C56: `C56_history`, `C56_predictions_unchanged`, `C56_predict_current_rules`
* C57: `C57_others_untouched_partial`, `C57_as_if_alone_partial`, `C57_owns_new_rules_partial`, `C57_no_rule_shared_partial`, `C57_shared_rule_refuted`, `C57_failed_fit_refuted`
* C58: `C58_init_predict_partial`, `C58_second_predict`, `C58_init_predict_refuted`
* C59: `C59_below_five_partial`, `C59_never_another_model`, `C59_silent_is_fit`, `C59_irep_verbosity_irrelevant`, `C59_irep_dataframe_engine`, `C59_ripper_verbosity_irrelevant`, `C59_verbosity_refuted`, `C59_no_features_refuted`
* C60: `C60_score_fidelity_partial`, `C60_neither`, `C60_accuracy_partial`, `C60_one_row_refuted`
* C61: `C61_unnamed_series_refuted`, `C61_unnamed_series_class_feat_refuted`, `C61_list_as_series_partial`
* C62: `C62_listed_keywords_take_effect_partial`, `C62_min_rule_samples_refuted`
* C63: `C63_rule_statistics`, `C63_irep_uncovered_partial`, `C63_irep_trimmed_refuted`
* C64: `C64_same_seed_same_model_partial`, `C64_set_order_refuted`, `C64_text_labels_refuted`
* C65: `C65_row_by_row_partial`, `C65_probabilities_partial`, `C65_selection_partial`, `C65_repeated_labels_refuted`, `C65_mixed_column_refuted`
* C66: `C66_refit_forgets`
* C67: `C67_bad_data_partial`, `C67_irep_failed_fit_refuted`, `C67_ripper_failed_fit_refuted`, `C67_half_trained_refuted`
* C68: `C68_predict_is_threshold_partial`, `C68_predict_is_threshold_refuted`, `C68_initial_model_refuted`
* C69: `C69_out_model_partial`, `C69_str_partial`, `C69_out_model_refuted`, `C69_truncstr_partial`, `C69_truncstr_zero_refuted`
* C70: `C70_adding`, `C70_removing`, `C70_replacing`
* C71: `C71_rule_order`
* C72: `C72_irep_rules_fire`, `C72_ripper_rules_fire`, `C72_fit_rules_fire`
* C73: `C73_features_once`, `C73_irep_features_once`, `C73_ripper_features_once`
* C74: `C74_negative_allowance`
* C75: `C75_no_duplicates`, `C75_no_duplicates_df`
* C76: `C76_training_data`
* C77: `C77_all_positives_found`, `C77_labels_reproduced`, `C77_training_score`
* C78: `C78_call_form`, `C78_column_or_labels`
* C79: `C79_bins_of_fit_partial`
* C80: `C80_only_positives_matter`, `C80_same_predictions`
* C81: `C81_no_repeated_rules`, `C81_learned_rules_differ`, `C81_equal_rules_refuted`
* C82: `C82_missing_values`, `C82_never_learned`
* C83: `C83_warm_start`, `C83_bins_refuted`, `C83_ripper_refuted`
* C84: `C84_feature_lists`
* C85: `C85_explains`, `C85_returns`, `C85_raises`, `C85_faithful`
* C86: `C86_examples`, `C86_invalid`
* C87: `C87_irep_conditions_work`, `C87_ripper_conditions_work`, `C87_fit_conditions_work`, `C87_no_longer_than_negatives`, `C87_no_constant_feature`
* C88: `C88_irep_rules_work`, `C88_fit_rules_work`
* C89: `C89_unfitted`
* C90: `C90_not_yet`, `C90_then`
* C93: `C93_call`, `C93_history`
* C94: `C94_nothing_learned`, `C94_irep_samples`, `C94_enough_samples`
* C95: `C95_ripper_rules_matter`, `C95_fit_rules_matter`, `C95_without_catnap_refuted`
* C96: `C96_only_structure_matters`, `C96_renamed_columns`, `C96_same_training_predictions`
* C97: `C97_no_positives`, `C97_irep_no_negatives`, `C97_ripper_no_negatives`
* C98: `C98_limits_cut_short`, `C98_predictions_grow`, `C98_max_rules_exact`, `C98_ripper_refuted`
* C99: `C99_idle_column`, `C99_same_predictions`, `C99_copy_in_front_refuted`, `C99_ripper_refuted`
* C100: `C100_row_order`, `C100_row_order_pruning`, `C100_same_predictions`, `C100_first_appearance_refuted`
* C101: `C101_counts`
* C102: `C102_limits_are_quantiles`, `C102_balanced_partial`, `C102_balanced_refuted`, `C102_every_limit`
* C103: `C103_halting_is_final`, `C103_announcement`
* C104: `C104_bins_decide`, `C104_probabilities`, `C104_outliers`
* C105: `C105_random_state_irrelevant`, `C105_pruning_refuted`
* C106: `C106_predict`, `C106_first_predict`, `C106_fit_classes`, `C106_single_label`, `C106_fit_model`, `C106_params`, `C106_trimmed_refuted`
* C107: `C107_same_rules`, `C107_same_probabilities`, `C107_history`
* C108: `C108_fit`, `C108_fit_continued`, `C108_no_rows`, `C108_recalibrate`
* C109: `C109_first_predict_exact`
* C110: `C110_same_classifier`, `C110_forms`, `C110_new_classifier`
* C111: `C111_adding`, `C111_removing`
* C112: `C112_binned_first`, `C112_same_predictions`
* C113: `C113_set_params`, `C113_history`, `C113_any_parameters`
* C114: `C114_bounds`, `C114_one_rule`
* C115: `C115_rule_count`, `C115_size`
* C116: `C116_fit`, `C116_recalibrate`
