{
 "claims": [
  {
   "property": "C01",
   "status": "proved",
   "theorems": [
    "C01_classifier_predict",
    "C01_predict_is_dnf",
    "C01_empty_rule_predicts_all",
    "C01_empty_ruleset_predicts_none"
   ],
   "note": "Distinct index labels, columns present. Values compared with Python ==."
  },
  {
   "property": "C02",
   "status": "partial",
   "theorems": [
    "C02_predict_depends_on_labels_refuted",
    "C02_predict_relabel_partial",
    "C02_predict_by_label"
   ],
   "note": "REFUTED in general (C02_predict_depends_on_labels_refuted: rows with the same label share a prediction). Proved for distinct labels; C02_predict_by_label gives the exact behaviour for repeated labels."
  },
  {
   "property": "C03",
   "status": "proved",
   "theorems": [
    "C03_classifier_reasons",
    "C03_reasons_exact"
   ],
   "note": "Distinct labels."
  },
  {
   "property": "C04",
   "status": "proved",
   "theorems": [
    "C04_covers_exact",
    "C04_covers_condition_order",
    "C04_covers_append",
    "C04_covers_idempotent"
   ],
   "note": ""
  },
  {
   "property": "C05",
   "status": "partial",
   "theorems": [
    "C05_covers_counts_twice_refuted",
    "C05_multiplicity",
    "C05_num_covered_at_least",
    "C05_num_covered_disjoint_partial"
   ],
   "note": "REFUTED (overlapping rules are counted once per rule). Proved: exact multiplicity, lower bound, equality for disjoint rules."
  },
  {
   "property": "C06",
   "status": "proved",
   "theorems": [
    "C06_missing_feature",
    "C06_success_means_present",
    "C06_reasons_missing_feature",
    "C06_classifier_missing"
   ],
   "note": "Ruleset and classifier level."
  },
  {
   "property": "C07",
   "status": "proved",
   "theorems": [
    "C07_other_columns_irrelevant"
   ],
   "note": ""
  },
  {
   "property": "C08",
   "status": "proved",
   "theorems": [
    "C08_rule_eq_equivalence",
    "C08_ruleset_eq_equivalence",
    "C08_rule_eq_means",
    "C08_ruleset_eq_means"
   ],
   "note": ""
  },
  {
   "property": "C09",
   "status": "partial",
   "theorems": [
    "C09_equal_rules_hash_refuted",
    "C09_equal_rules_hash_partial",
    "C09_permuted_rules_hash"
   ],
   "note": "REFUTED for rules that repeat a condition ([a,a,b] == [a,b,b]). Proved for rules without repeated conditions, any hash."
  },
  {
   "property": "C10",
   "status": "partial",
   "theorems": [
    "C10_equal_rules_cover_refuted",
    "C10_equal_rules_cover_partial",
    "C10_equal_rulesets_predict_partial",
    "C10_plain_text_is_faithful"
   ],
   "note": "REFUTED (1 vs \"1\"; a='b=c' vs 'a=b'='c'). Proved when conditions that print alike are equal, in particular plain text."
  },
  {
   "property": "C11",
   "status": "partial",
   "theorems": [
    "C11_print_parse_partial",
    "C11_print_parse_refuted"
   ],
   "note": "REFUTED generally (blanks around values lost, V inside text, numbers, empty rule); proved for rulesets of non-empty rules over plain text."
  },
  {
   "property": "C12",
   "status": "proved",
   "theorems": [
    "C12_condition_text",
    "C12_rule_text",
    "C12_ruleset_text",
    "C12_bad_condition_rejected"
   ],
   "note": "Exact characterisation of accepted text for conditions, rules, rulesets."
  },
  {
   "property": "C13",
   "status": "proved",
   "theorems": [
    "C13_edit_at_index",
    "C13_edit_by_value",
    "C13_by_value_cases",
    "C13_failed_edit_changes_nothing"
   ],
   "note": "Rule-list and classifier level (histories: C56)."
  },
  {
   "property": "C14",
   "status": "proved",
   "theorems": [
    "C14_remove_duplicates",
    "C14_remove_duplicates_facts",
    "C14_remove_duplicates_predict"
   ],
   "note": "For every hash function."
  },
  {
   "property": "C15",
   "status": "proved",
   "theorems": [
    "C15_trim_longest_prefix",
    "C15_trim_none"
   ],
   "note": ""
  },
  {
   "property": "C16",
   "status": "proved",
   "theorems": [
    "C16_split_partition",
    "C16_second_part_nonempty",
    "C16_df_split_partition",
    "C16_df_second_part_nonempty"
   ],
   "note": "For every permutation the shuffles return and every admissible rounding of int(n*size)."
  },
  {
   "property": "C17",
   "status": "proved",
   "theorems": [
    "C17_pos_neg_partition",
    "C17_missing_class_column"
   ],
   "note": ""
  },
  {
   "property": "C18",
   "status": "proved",
   "theorems": [
    "C18_rm_covered_rule",
    "C18_rm_covered_ruleset",
    "C18_rm_rule_covers_cn"
   ],
   "note": "Distinct labels."
  },
  {
   "property": "C19",
   "status": "proved",
   "theorems": [
    "C19_nCr_is_binomial",
    "C19_argmin_first_minimum",
    "C19_argmin_total",
    "C19_i_replaced"
   ],
   "note": "nCr for all naturals; argmin is the first minimum; i_replaced."
  },
  {
   "property": "C20",
   "status": "partial",
   "theorems": [
    "C20_catnap_cond",
    "C20_catnap_rule",
    "C20_catnap_ruleset_partial",
    "C20_catnap_empty_subset_refuted"
   ],
   "note": "REFUTED in one corner (a ruleset containing the empty rule queried on NO example returns every label). Proved for conditions and rules without restriction, for rulesets outside that corner."
  },
  {
   "property": "C21",
   "status": "partial",
   "theorems": [
    "C21_irep_engines_agree_partial",
    "C21_irep_engines_differ_refuted"
   ],
   "note": "REFUTED in general (C21_irep_engines_differ_refuted: cn_optimize=False only considers values that occur both among positives and negatives). Proved: the engines return the same rules whenever the candidate value lists coincide."
  },
  {
   "property": "C22",
   "status": "proved",
   "theorems": [
    "C22_best_rule_successor_cn",
    "C22_best_successor",
    "C22_rcov_exact"
   ],
   "note": ""
  },
  {
   "property": "C23",
   "status": "proved",
   "theorems": [
    "C23_grow_rule_cn_terminates",
    "C23_grow_rule_terminates",
    "C23_grow_rule_cn",
    "C23_grow_rule",
    "C23_grow_rule_cn_min_samples"
   ],
   "note": ""
  },
  {
   "property": "C24",
   "status": "proved",
   "theorems": [
    "C24_prune_rule",
    "C24_prune_empty",
    "C24_prune_rule_on_ruleset",
    "C24_irep_metric",
    "C24_ripper_metric"
   ],
   "note": ""
  },
  {
   "property": "C25",
   "status": "proved",
   "theorems": [
    "C25_irep_fit_total",
    "C25_irep_training_total"
   ],
   "note": "Training loop and whole fit, every admissible shuffle/set order and quantile function."
  },
  {
   "property": "C26",
   "status": "proved",
   "theorems": [
    "C26_fit_conditions_from_data",
    "C26_irep_conditions_from_data",
    "C26_irep_rule_covers_positive",
    "C26_ripper_conditions_from_data"
   ],
   "note": "Training of both learners and both engines, and whole fit."
  },
  {
   "property": "C27",
   "status": "proved",
   "theorems": [
    "C27_irep_precision"
   ],
   "note": ""
  },
  {
   "property": "C28",
   "status": "proved",
   "theorems": [
    "C28_fit_covers_positives",
    "C28_fit_no_false_positives",
    "C28_irep_covers_positives",
    "C28_irep_no_false_positives"
   ],
   "note": "Training loop and whole fit (the fit theorem for coverage assumes that different conditions print differently, because duplicate removal compares printed text)."
  },
  {
   "property": "C29",
   "status": "proved",
   "theorems": [
    "C29_irep_fit_keeps_initial",
    "C29_irep_keeps_initial_rules"
   ],
   "note": "Training and whole fit (values only; aliasing of the rule objects is C57)."
  },
  {
   "property": "C30",
   "status": "proved",
   "theorems": [
    "C30_fit_max_rules",
    "C30_irep_max_rules",
    "C30_ripper_max_rules"
   ],
   "note": "Training of both learners and both engines, and whole fit."
  },
  {
   "property": "C31",
   "status": "partial",
   "theorems": [
    "C31_irep_fit_max_rule_conds",
    "C31_irep_max_rule_conds",
    "C31_ripper_max_rule_conds_partial",
    "C31_ripper_max_rule_conds_refuted"
   ],
   "note": "IREP proved (training and fit); RIPPER REFUTED (optimisation passes are not given max_rule_conds); RIPPER proved for k=0."
  },
  {
   "property": "C32",
   "status": "proved",
   "theorems": [
    "C32_fit_max_total_conds"
   ],
   "note": "Whole fit of both learners."
  },
  {
   "property": "C33",
   "status": "partial",
   "theorems": [
    "C33_min_rule_samples_partial",
    "C33_min_rule_samples_df_partial",
    "C33_min_rule_samples_refuted"
   ],
   "note": "REFUTED; see the theorems for the exact behaviour."
  },
  {
   "property": "C34",
   "status": "proved",
   "theorems": [
    "C34_ripper_fit_total",
    "C34_ripper_training_total"
   ],
   "note": "Training (stages 1-4) and whole fit, every admissible shuffle."
  },
  {
   "property": "C35",
   "status": "partial",
   "theorems": [
    "C35_no_prune_fit_partial",
    "C35_no_prune_refuted",
    "C35_no_prune_partial"
   ],
   "note": "REFUTED: AttributeError on four rows with prune_size=0 (C35_no_prune_refuted). Proved part: with k=0 (no optimisation pass) training and the whole fit never raise (C35_no_prune_partial, C35_no_prune_fit_partial)."
  },
  {
   "property": "C36",
   "status": "proved",
   "theorems": [
    "C36_description_length",
    "C36_comparisons"
   ],
   "note": "Exact real arithmetic (floats idealised)."
  },
  {
   "property": "C37",
   "status": "partial",
   "theorems": [
    "C37_subset_exact",
    "C37_exceptions_positive",
    "C37_mdl_subset",
    "C37_mdl_refuted"
   ],
   "note": "Sub-list keeping the first rule: proved, with the exact criterion for every later rule (C37_subset_exact). Description length not increased: REFUTED (C37_mdl_refuted)."
  },
  {
   "property": "C38",
   "status": "proved",
   "theorems": [
    "C38_optimisation_in_place",
    "C38_optimisation_in_place_df"
   ],
   "note": "Both engines."
  },
  {
   "property": "C39",
   "status": "partial",
   "theorems": [
    "C39_cover_remaining_df",
    "C39_cover_remaining_refuted"
   ],
   "note": "Proved for cn_optimize=False; REFUTED for the default engine."
  },
  {
   "property": "C40",
   "status": "proved",
   "theorems": [
    "C40_classifier_proba",
    "C40_probabilities",
    "C40_recalibrate_calibrates",
    "C40_deleting_keeps_calibrated"
   ],
   "note": "Exact rational arithmetic (floats idealised). Calibrated rulesets; recalibration with alpha > 0 establishes it, deletions keep it."
  },
  {
   "property": "C41",
   "status": "proved",
   "theorems": [
    "C41_classifier_recalibrate",
    "C41_recalibrate_counts",
    "C41_alpha_zero"
   ],
   "note": "alpha > 0; alpha = 0 can divide by zero (C41_alpha_zero)."
  },
  {
   "property": "C42",
   "status": "proved",
   "theorems": [
    "C42_classifier_recalibration",
    "C42_recalibration_keeps_predictions"
   ],
   "note": ""
  },
  {
   "property": "C43",
   "status": "partial",
   "theorems": [
    "C43_classifier_parameters_ignored",
    "C43_classifier_refuted",
    "C43_require_min_samples_refuted",
    "C43_parameters_ignored"
   ],
   "note": "REFUTED: the guard is inside a string literal (C43_require_min_samples_refuted)."
  },
  {
   "property": "C44",
   "status": "partial",
   "theorems": [
    "C44_classifier_refuted",
    "C44_uncalibrated_rule_raises",
    "C44_proba_after_edit_refuted",
    "C44_proba_after_edit_partial"
   ],
   "note": "REFUTED: AttributeError after add_rule. Proved for deletions and for edits followed by recalibration."
  },
  {
   "property": "C45",
   "status": "proved",
   "theorems": [
    "C45_accuracy",
    "C45_precision",
    "C45_recall",
    "C45_f1",
    "C45_length_mismatch",
    "C45_counts_are_all"
   ],
   "note": "F1 is None exactly when tp = 0 (deviates from the textbook 0)."
  },
  {
   "property": "C46",
   "status": "proved",
   "theorems": [
    "C46_score",
    "C46_length_mismatch"
   ],
   "note": "Any classifier fitted or initialised, binned columns included; default metric; mismatch rejected for all four metrics."
  },
  {
   "property": "C47",
   "status": "proved",
   "theorems": [
    "C47_rule_stats"
   ],
   "note": "Without n_examples."
  },
  {
   "property": "C48",
   "status": "proved",
   "theorems": [
    "C48_label_round_trip",
    "C48_labels_injective"
   ],
   "note": "Decimal, exponent and infinite ends."
  },
  {
   "property": "C49",
   "status": "partial",
   "theorems": [
    "C49_pandas_edges",
    "C49_gap_refuted",
    "C49_training_value_lost_refuted",
    "C49_training_value_kept",
    "C49_transform_exact",
    "C49_every_number_one_bin_partial"
   ],
   "note": "REFUTED: dropped empty bins leave gaps (C49_gap_refuted); rounding the labels can turn even training values into nan (C49_training_value_lost_refuted). Proved: exact behaviour for all edges whose shown values increase, which those of the modelled pd.qcut/pd.cut do (C49_pandas_edges); full claim when no bin was dropped; no training value is lost if the numbers are multiples of n/100."
  },
  {
   "property": "C50",
   "status": "partial",
   "theorems": [
    "C50_numpy_quantiles_partial",
    "C50_numpy_fit_refuted",
    "C50_numpy_threshold_refuted",
    "C50_numpy_convention",
    "C50_numpy_bin_partial",
    "C50_numpy_limits_near"
   ],
   "note": "REFUTED at inner thresholds; exact convention proved; full claim away from thresholds. Fit of the numpy engine: proved when the rounded quantiles differ; otherwise it can raise or make empty bins (C50_numpy_fit_refuted)."
  },
  {
   "property": "C51",
   "status": "partial",
   "theorems": [
    "C51_idempotent_partial",
    "C51_idempotent_refuted",
    "C51_foreign_bin",
    "C51_only_binned_columns"
   ],
   "note": "REFUTED with missing values; proved without; foreign bins rejected."
  },
  {
   "property": "C52",
   "status": "proved",
   "theorems": [
    "C52_given",
    "C52_binary",
    "C52_single",
    "C52_otherwise_raises"
   ],
   "note": ""
  },
  {
   "property": "C53",
   "status": "partial",
   "theorems": [
    "C53_labels_attached_partial",
    "C53_list_length_checked",
    "C53_series_length_refuted"
   ],
   "note": "Proved for lists and aligned Series; REFUTED for Series of another length (C53_series_length_refuted)."
  },
  {
   "property": "C54",
   "status": "partial",
   "theorems": [
    "C54_rebuild_partial",
    "C54_min_rule_samples_refuted"
   ],
   "note": "REFUTED for min_rule_samples (C54_min_rule_samples_refuted: not listed in VALID_HYPERPARAMETERS); proved for every other hyperparameter."
  },
  {
   "property": "C55",
   "status": "partial",
   "theorems": [
    "C55_fitted_predict_partial",
    "C55_selected_features_refuted"
   ],
   "note": "REFUTED in general (C55_selected_features_refuted: features of trimmed-off rules are still required). Proved for data with all features recorded at fit time."
  },
  {
   "property": "C56",
   "status": "proved",
   "theorems": [
    "C56_history",
    "C56_predictions_unchanged",
    "C56_predict_current_rules"
   ],
   "note": "Refinement of arbitrary histories to a plain list of rules."
  },
  {
   "property": "C57",
   "status": "partial",
   "theorems": [
    "C57_others_untouched_partial",
    "C57_as_if_alone_partial",
    "C57_owns_new_rules_partial",
    "C57_no_rule_shared_partial",
    "C57_shared_rule_refuted",
    "C57_failed_fit_refuted"
   ],
   "note": "Object-graph model of arbitrary programs over several models. REFUTED when one Rule object is added to two models (C57_shared_rule_refuted) and when IREP.fit fails on an initial model given as an object (C57_failed_fit_refuted). Proved for every other program."
  },
  {
   "property": "C58",
   "status": "partial",
   "theorems": [
    "C58_init_predict_partial",
    "C58_second_predict",
    "C58_init_predict_refuted"
   ],
   "note": "REFUTED (dates, numbers, \"a - b\" as condition values); proved for text without a dash, and for every call after the first. C109 says exactly when the first call fails."
  },
  {
   "property": "C59",
   "status": "partial",
   "theorems": [
    "C59_below_five_partial",
    "C59_never_another_model",
    "C59_silent_is_fit",
    "C59_irep_verbosity_irrelevant",
    "C59_irep_dataframe_engine",
    "C59_ripper_verbosity_irrelevant",
    "C59_verbosity_refuted",
    "C59_no_features_refuted"
   ],
   "note": "REFUTED at verbosity 5 (C59_verbosity_refuted, C59_no_features_refuted). Proved: below 5, never another model; at every verbosity for IREP, and for RIPPER with prune_size > 0, when the table has a feature and distinct labels."
  },
  {
   "property": "C60",
   "status": "partial",
   "theorems": [
    "C60_score_fidelity_partial",
    "C60_neither",
    "C60_accuracy_partial",
    "C60_one_row_refuted"
   ],
   "note": "Any black box (a function that may raise). Refuted for one row: try_np_tonum turns a one-element array of predictions into a bare number, which score cannot iterate (C60_one_row_refuted); the _partial theorems exclude exactly that case."
  },
  {
   "property": "C61",
   "status": "partial",
   "theorems": [
    "C61_unnamed_series_refuted",
    "C61_unnamed_series_class_feat_refuted",
    "C61_list_as_series_partial"
   ],
   "note": "REFUTED for unnamed Series (C61_unnamed_series_refuted); proved for list vs named Series."
  },
  {
   "property": "C62",
   "status": "partial",
   "theorems": [
    "C62_listed_keywords_take_effect_partial",
    "C62_min_rule_samples_refuted"
   ],
   "note": "REFUTED for min_rule_samples and any unlisted name; proved for the listed hyperparameters."
  },
  {
   "property": "C63",
   "status": "partial",
   "theorems": [
    "C63_rule_statistics",
    "C63_irep_uncovered_partial",
    "C63_irep_trimmed_refuted"
   ],
   "note": "Rule statistics proved for both learners; uncovered statistics proved for RIPPER, and for IREP without max_total_conds; REFUTED for IREP with max_total_conds (C63_irep_trimmed_refuted)."
  },
  {
   "property": "C64",
   "status": "partial",
   "theorems": [
    "C64_same_seed_same_model_partial",
    "C64_set_order_refuted",
    "C64_text_labels_refuted"
   ],
   "note": "REFUTED for cn_optimize=False (set order depends on the hash seed, C64_set_order_refuted) and for text row labels (C64_text_labels_refuted). Proved for the default engine: the model depends only on data, hyperparameters and the random draws."
  },
  {
   "property": "C65",
   "status": "partial",
   "theorems": [
    "C65_row_by_row_partial",
    "C65_probabilities_partial",
    "C65_selection_partial",
    "C65_repeated_labels_refuted",
    "C65_mixed_column_refuted"
   ],
   "note": "REFUTED for repeated row labels and for binned columns mixing numbers and bin labels. Proved for every two other batches: equal cells give equal predictions, reasons and probabilities."
  },
  {
   "property": "C66",
   "status": "proved",
   "theorems": [
    "C66_refit_forgets"
   ],
   "note": "For every state the classifier was in before."
  },
  {
   "property": "C67",
   "status": "partial",
   "theorems": [
    "C67_bad_data_partial",
    "C67_irep_failed_fit_refuted",
    "C67_ripper_failed_fit_refuted",
    "C67_half_trained_refuted"
   ],
   "note": "REFUTED for both classifiers (C67_irep_failed_fit_refuted, C67_ripper_failed_fit_refuted). Proved: what the failing call can have changed."
  },
  {
   "property": "C68",
   "status": "partial",
   "theorems": [
    "C68_predict_is_threshold_partial",
    "C68_predict_is_threshold_refuted",
    "C68_initial_model_refuted"
   ],
   "note": "REFUTED right after fit (C68_predict_is_threshold_refuted, C68_initial_model_refuted). Proved for rulesets whose stored rule probabilities are above and uncovered probability at most one half."
  },
  {
   "property": "C69",
   "status": "partial",
   "theorems": [
    "C69_out_model_partial",
    "C69_str_partial",
    "C69_out_model_refuted",
    "C69_truncstr_partial",
    "C69_truncstr_zero_refuted"
   ],
   "note": "REFUTED for conditions containing commas or blanks (C69_out_model_refuted) and truncstr(0, \"right\") (C69_truncstr_zero_refuted); proved for all other text and limits."
  },
  {
   "property": "C70",
   "status": "proved",
   "theorems": [
    "C70_adding",
    "C70_removing",
    "C70_replacing"
   ],
   "note": "All eight editing calls."
  },
  {
   "property": "C71",
   "status": "proved",
   "theorems": [
    "C71_rule_order"
   ],
   "note": ""
  },
  {
   "property": "C72",
   "status": "proved",
   "theorems": [
    "C72_irep_rules_fire",
    "C72_ripper_rules_fire",
    "C72_fit_rules_fire"
   ],
   "note": "At the level of the learners and of fit; RIPPER started from an initial model is not claimed (the property excludes it)."
  },
  {
   "property": "C73",
   "status": "proved",
   "theorems": [
    "C73_features_once",
    "C73_irep_features_once",
    "C73_ripper_features_once"
   ],
   "note": "At the level of the learners and of fit."
  },
  {
   "property": "C74",
   "status": "proved",
   "theorems": [
    "C74_dl_allowance",
    "C74_dl_allowance_df",
    "C74_negative_allowance"
   ],
   "note": "Both engines, any initial rules that have a description length; the allowance is an integer number of bits (the default is 64)."
  },
  {
   "property": "C75",
   "status": "proved",
   "theorems": [
    "C75_only_savings",
    "C75_only_savings_df",
    "C75_choice",
    "C75_no_duplicates",
    "C75_no_duplicates_df"
   ],
   "note": "Savings and absence of new duplicates: both engines. The complete rule of choice: default engine (cn_optimize=True) with prune_size > 0."
  },
  {
   "property": "C76",
   "status": "proved",
   "theorems": [
    "C76_training_data"
   ],
   "note": "Both learners, both engines."
  },
  {
   "property": "C77",
   "status": "proved",
   "theorems": [
    "C77_all_positives_found",
    "C77_labels_reproduced",
    "C77_training_score"
   ],
   "note": "All positives: both engines. Exact reproduction: default engine, under the stated conditions."
  },
  {
   "property": "C78",
   "status": "proved",
   "theorems": [
    "C78_call_form",
    "C78_column_or_labels"
   ],
   "note": "Rows are passed as a list of rows; a NumPy array of dtype object, whose columns pandas does not regard as numeric, is outside the model."
  },
  {
   "property": "C79",
   "status": "partial",
   "theorems": [
    "C79_bins_of_fit_partial"
   ],
   "note": "\"Exactly\" is false when a column has missing values (C79_missing_value_refuted). Proved: every discretised feature is as claimed, and every numeric column without missing values that has more than n different values is discretised. Edges are those of the pandas model (Cut.v)."
  },
  {
   "property": "C80",
   "status": "proved",
   "theorems": [
    "C80_only_positives_matter",
    "C80_same_predictions"
   ],
   "note": "prune_size in [0,1], distinct row labels, no initial model, pos_class given."
  },
  {
   "property": "C81",
   "status": "partial",
   "theorems": [
    "C81_no_repeated_rules",
    "C81_learned_rules_differ",
    "C81_equal_rules_refuted"
   ],
   "note": "No rule is returned twice up to the order of its conditions, for every initial model (C81_no_repeated_rules); two == rules can survive together only if one repeats a condition, which learned rules never do (C81_learned_rules_differ). The unrestricted claim about == is refuted for initial models with repeated conditions."
  },
  {
   "property": "C82",
   "status": "proved",
   "theorems": [
    "C82_missing_values",
    "C82_never_learned"
   ],
   "note": "C82_missing_values for predict, reasons and probabilities of any ready classifier; C82_never_learned for fit without an initial model."
  },
  {
   "property": "C83",
   "status": "partial",
   "theorems": [
    "C83_warm_start",
    "C83_bins_refuted",
    "C83_ripper_refuted"
   ],
   "note": "REFUTED: IREP refits the bins, so a kept rule may never match again; RIPPER may drop the initial rules. Proved for IREP without max_total_conds, rows being read through the bins of the new model (C83_warm_start)."
  },
  {
   "property": "C84",
   "status": "proved",
   "theorems": [
    "C84_feature_lists"
   ],
   "note": "C84_feature_lists; the last clause assumes that different conditions print differently (text_tells)."
  },
  {
   "property": "C85",
   "status": "proved",
   "theorems": [
    "C85_explains",
    "C85_returns",
    "C85_raises",
    "C85_faithful"
   ],
   "note": "Answers must be as many as the rows."
  },
  {
   "property": "C86",
   "status": "proved",
   "theorems": [
    "C86_examples",
    "C86_invalid"
   ],
   "note": "DataFrame.sample is assumed to return k of the rows without repetition (sample_ok); row labels must be distinct."
  },
  {
   "property": "C87",
   "status": "proved",
   "theorems": [
    "C87_irep_conditions_work",
    "C87_ripper_conditions_work",
    "C87_fit_conditions_work",
    "C87_no_longer_than_negatives",
    "C87_no_constant_feature"
   ],
   "note": "RIPPER is covered when started without an initial model (IREP with any)."
  },
  {
   "property": "C88",
   "status": "proved",
   "theorems": [
    "C88_irep_rules_work",
    "C88_fit_rules_work"
   ],
   "note": "Not claimed for RIPPER, whose optimisation rounds replace rules in place."
  },
  {
   "property": "C89",
   "status": "proved",
   "theorems": [
    "C89_unfitted"
   ],
   "note": "C89_unfitted"
  },
  {
   "property": "C90",
   "status": "proved",
   "theorems": [
    "C90_not_yet",
    "C90_then"
   ],
   "note": "C90_not_yet, C90_then"
  },
  {
   "property": "C91",
   "status": "proved",
   "theorems": [
    "C91_irep_training",
    "C91_fit_is_irep",
    "C91_run_covers",
    "C91_run_idle"
   ],
   "note": "C91_irep_training, C91_fit_is_irep; C91_run_covers, C91_run_idle show what the relation entails"
  },
  {
   "property": "C92",
   "status": "proved",
   "theorems": [
    "C92_ripper_training",
    "C92_fit_is_ripper",
    "C92_run_empty",
    "C92_first_kept"
   ],
   "note": "C92_ripper_training, C92_fit_is_ripper; C92_run_empty and C92_first_kept show what the relation entails"
  },
  {
   "property": "C93",
   "status": "proved",
   "theorems": [
    "C93_call",
    "C93_history"
   ],
   "note": "proved for each call in any store and for histories of calls"
  },
  {
   "property": "C94",
   "status": "proved",
   "theorems": [
    "C94_nothing_learned",
    "C94_irep_samples",
    "C94_enough_samples"
   ],
   "note": ""
  },
  {
   "property": "C95",
   "status": "proved",
   "theorems": [
    "C95_ripper_rules_matter",
    "C95_fit_rules_matter",
    "C95_without_catnap_refuted"
   ],
   "note": ""
  },
  {
   "property": "C96",
   "status": "proved",
   "theorems": [
    "C96_only_structure_matters",
    "C96_renamed_columns",
    "C96_same_training_predictions"
   ],
   "note": ""
  },
  {
   "property": "C97",
   "status": "proved",
   "theorems": [
    "C97_no_positives",
    "C97_irep_no_negatives",
    "C97_ripper_no_negatives"
   ],
   "note": ""
  },
  {
   "property": "C98",
   "status": "proved",
   "theorems": [
    "C98_limits_cut_short",
    "C98_predictions_grow",
    "C98_max_rules_exact",
    "C98_ripper_refuted"
   ],
   "note": ""
  },
  {
   "property": "C99",
   "status": "proved",
   "theorems": [
    "C99_idle_column",
    "C99_same_predictions",
    "C99_copy_in_front_refuted",
    "C99_ripper_refuted"
   ],
   "note": "cn_optimize=True and IREP only, as the claim says; refuted for RIPPER and for a copy left of the original."
  },
  {
   "property": "C100",
   "status": "proved",
   "theorems": [
    "C100_row_order",
    "C100_row_order_pruning",
    "C100_same_predictions",
    "C100_first_appearance_refuted"
   ],
   "note": "cn_optimize=True only, as the claim says; the condition on first appearance is needed (C100_first_appearance_refuted)."
  },
  {
   "property": "C101",
   "status": "proved",
   "theorems": [
    "C101_ripper_df_training",
    "C101_fit_is_ripper",
    "C101_counts",
    "C101_bits"
   ],
   "note": "dl_allowance >= 0 and prune_size > 0 as in C92 (without pruning the optimisation raises); the counting with multiplicity is the code's, C101_counted_twice shows it differs from the standard one"
  },
  {
   "property": "C102",
   "status": "partial",
   "theorems": [
    "C102_limits_are_quantiles",
    "C102_balanced_partial",
    "C102_balanced_refuted",
    "C102_every_limit"
   ],
   "note": "REFUTED as stated: the limits are rounded to hundredths, which can leave one value of nine in one of two bins (C102_balanced_refuted). Proved: number of bins and limits (C102_limits_are_quantiles), the limits of columns with repeated values (C102_every_limit), and the balance when rounding moves no training value (C102_balanced_partial)."
  },
  {
   "property": "C103",
   "status": "proved",
   "theorems": [
    "C103_halting_is_final",
    "C103_announcement"
   ],
   "note": "Both variants of the algorithm (cn_optimize True and False). The example halts at iteration 2 after a first pass that changed the rules."
  },
  {
   "property": "C104",
   "status": "proved",
   "theorems": [
    "C104_bins_decide",
    "C104_probabilities",
    "C104_outliers"
   ],
   "note": "Tables with repeated row labels are outside (C02)."
  },
  {
   "property": "C105",
   "status": "proved",
   "theorems": [
    "C105_random_state_irrelevant",
    "C105_pruning_refuted"
   ],
   "note": "RIPPER without pruning usually raises in its optimisation stage (C35); the theorem covers its successful calls. The hash function and the cutting of columns are the same in both runs."
  },
  {
   "property": "C106",
   "status": "proved",
   "theorems": [
    "C106_predict",
    "C106_first_predict",
    "C106_fit_classes",
    "C106_single_label",
    "C106_fit_model",
    "C106_params",
    "C106_trimmed_refuted"
   ],
   "note": "With max_total_conds set, fit's model warnings speak of the rules before trimming: C106_trimmed_refuted. The warnings of the recalibration docstring are not in the code that runs."
  },
  {
   "property": "C107",
   "status": "proved",
   "theorems": [
    "C107_same_rules",
    "C107_same_probabilities",
    "C107_history"
   ],
   "note": "set_params between the calls is excluded from the history theorem, because it can change alpha. A failing recalibration can leave some rules updated and others not (C42 covers the predictions); the theorem says this is repaired by the next success."
  },
  {
   "property": "C108",
   "status": "proved",
   "theorems": [
    "C108_fit",
    "C108_fit_continued",
    "C108_no_rows",
    "C108_recalibrate"
   ],
   "note": "The rules of IREP are already replaced when the exception is raised (C67)."
  },
  {
   "property": "C109",
   "status": "proved",
   "theorems": [
    "C109_first_predict_exact"
   ],
   "note": ""
  },
  {
   "property": "C110",
   "status": "proved",
   "theorems": [
    "C110_same_classifier",
    "C110_forms",
    "C110_new_classifier"
   ],
   "note": "The first prediction of the new classifier may raise (C109)."
  },
  {
   "property": "C111",
   "status": "proved",
   "theorems": [
    "C111_adding",
    "C111_removing"
   ],
   "note": ""
  },
  {
   "property": "C112",
   "status": "proved",
   "theorems": [
    "C112_binned_first",
    "C112_same_predictions"
   ],
   "note": "n_discretize_bins None or >= 0. The table is the internal training table (training_df), which is the DataFrame itself when the labels are one of its columns; C78 relates the other forms."
  },
  {
   "property": "C113",
   "status": "proved",
   "theorems": [
    "C113_set_params",
    "C113_history",
    "C113_any_parameters"
   ],
   "note": "set_params with names that are not hyperparameters (which the code would store as attributes) is outside the model."
  },
  {
   "property": "C114",
   "status": "proved",
   "theorems": [
    "C114_bounds",
    "C114_one_rule"
   ],
   "note": "Exact arithmetic, as everywhere for scores."
  },
  {
   "property": "C115",
   "status": "proved",
   "theorems": [
    "C115_rule_count",
    "C115_size"
   ],
   "note": "rule count for IREP and for RIPPER with cn_optimize=True; condition count per rule for all; C115_rule_count for every engine and initial model (a weaker bound)"
  },
  {
   "property": "C116",
   "status": "proved",
   "theorems": [
    "C116_fit",
    "C116_recalibrate"
   ],
   "note": ""
  }
 ]
}