STATUS={
'C01':('proved',"Distinct index labels, columns present. Values compared with Python ==."),
'C02':('partial',"REFUTED in general (C02_predict_depends_on_labels_refuted: rows with the same label share a prediction). Proved for distinct labels; C02_predict_by_label gives the exact behaviour for repeated labels."),
'C03':('proved',"Distinct labels."),
'C04':('proved',""),
'C05':('partial',"REFUTED (overlapping rules are counted once per rule). Proved: exact multiplicity, lower bound, equality for disjoint rules."),
'C06':('proved',"Ruleset and classifier level."),
'C07':('proved',""),
'C08':('proved',""),
'C09':('partial',"REFUTED for rules that repeat a condition ([a,a,b] == [a,b,b]). Proved for rules without repeated conditions, any hash."),
'C10':('partial',"REFUTED (1 vs \"1\"; a='b=c' vs 'a=b'='c'). Proved when conditions that print alike are equal, in particular plain text."),
'C13':('proved',"Rule-list and classifier level (histories: C56)."),
'C14':('proved',"For every hash function."),
'C15':('proved',""),
'C16':('proved',"For every permutation the shuffles return and every admissible rounding of int(n*size)."),
'C17':('proved',""),
'C18':('proved',"Distinct labels."),
'C19':('proved',"nCr for all naturals; argmin is the first minimum; i_replaced."),
'C20':('partial',"REFUTED in one corner (a ruleset containing the empty rule queried on NO example returns every label). Proved for conditions and rules without restriction, for rulesets outside that corner."),
'C45':('proved',"F1 is None exactly when tp = 0 (deviates from the textbook 0)."),
 'C21':('partial',"REFUTED in general (C21_irep_engines_differ_refuted: cn_optimize=False only considers values that occur both among positives and negatives). Proved: the engines return the same rules whenever the candidate value lists coincide."),
 'C22':('proved',""),
 'C23':('proved',""),
 'C24':('proved',""),
 'C27':('proved',""),
 'C28':('proved',"Training loop and whole fit (the fit theorem for coverage assumes that different conditions print differently, because duplicate removal compares printed text)."),
 'C33':('partial',"REFUTED; see the theorems for the exact behaviour."),
 'C35':('partial',"REFUTED: AttributeError on four rows with prune_size=0 (C35_no_prune_refuted). Proved part: with k=0 (no optimisation pass) training and the whole fit never raise (C35_no_prune_partial, C35_no_prune_fit_partial)."),
 'C36':('proved',"Exact real arithmetic (floats idealised)."),
 'C37':('partial',"Sub-list keeping the first rule: proved, with the exact criterion for every later rule (C37_subset_exact). Description length not increased: REFUTED (C37_mdl_refuted)."),
 'C38':('proved',"Both engines."),
 'C39':('partial',"Proved for cn_optimize=False; REFUTED for the default engine."),
 'C11':('partial', "REFUTED generally (blanks around values lost, V inside text, numbers, empty rule); proved for rulesets of non-empty rules over plain text."),
 'C12':('proved', "Exact characterisation of accepted text for conditions, rules, rulesets."),
 'C40':('proved', "Exact rational arithmetic (floats idealised). Calibrated rulesets; recalibration with alpha > 0 establishes it, deletions keep it."),
 'C41':('proved', "alpha > 0; alpha = 0 can divide by zero (C41_alpha_zero)."),
 'C42':('proved', ""),
 'C43':('partial', "REFUTED: the guard is inside a string literal (C43_require_min_samples_refuted)."),
 'C44':('partial', "REFUTED: AttributeError after add_rule. Proved for deletions and for edits followed by recalibration."),
 'C48':('proved', "Decimal, exponent and infinite ends."),
 'C49':('partial', "REFUTED: dropped empty bins leave gaps (C49_gap_refuted); rounding the labels can turn even training values into nan (C49_training_value_lost_refuted). Proved: exact behaviour for all edges whose shown values increase, which those of the modelled pd.qcut/pd.cut do (C49_pandas_edges); full claim when no bin was dropped; no training value is lost if the numbers are multiples of n/100."),
 'C50':('partial', "REFUTED at inner thresholds; exact convention proved; full claim away from thresholds. Fit of the numpy engine: proved when the rounded quantiles differ; otherwise it can raise or make empty bins (C50_numpy_fit_refuted)."),
 'C51':('partial', "REFUTED with missing values; proved without; foreign bins rejected."),
 'C25':('proved','Training loop and whole fit, every admissible shuffle/set order and quantile function.'),
 'C26':('proved','Training of both learners and both engines, and whole fit.'),
 'C29':('proved','Training and whole fit (values only; aliasing of the rule objects is C57).'),
 'C30':('proved','Training of both learners and both engines, and whole fit.'),
 'C31':('partial','IREP proved (training and fit); RIPPER REFUTED (optimisation passes are not given max_rule_conds); RIPPER proved for k=0.'),
 'C32':('proved','Whole fit of both learners.'),
 'C34':('proved','Training (stages 1-4) and whole fit, every admissible shuffle.'),
 'C52':('proved',''),
 'C53':('partial','Proved for lists and aligned Series; REFUTED for Series of another length (C53_series_length_refuted).'),
 'C61':('partial','REFUTED for unnamed Series (C61_unnamed_series_refuted); proved for list vs named Series.'),
 'C46':('proved','Any classifier fitted or initialised, binned columns included; default metric; mismatch rejected for all four metrics.'),
 'C47':('proved','Without n_examples.'),
 'C55':('partial','REFUTED in general (C55_selected_features_refuted: features of trimmed-off rules are still required). Proved for data with all features recorded at fit time.'),
 'C63':('partial','Rule statistics proved for both learners; uncovered statistics proved for RIPPER, and for IREP without max_total_conds; REFUTED for IREP with max_total_conds (C63_irep_trimmed_refuted).'),
 'C54':('partial','REFUTED for min_rule_samples (C54_min_rule_samples_refuted: not listed in VALID_HYPERPARAMETERS); proved for every other hyperparameter.'),
 'C56':('proved','Refinement of arbitrary histories to a plain list of rules.'),
 'C58':('partial','REFUTED (dates, numbers, "a - b" as condition values); proved for text without a dash, and for every call after the first. C109 says exactly when the first call fails.'),
 'C60':('partial','Any black box (a function that may raise). Refuted for one row: try_np_tonum turns a one-element array of predictions into a bare number, which score cannot iterate (C60_one_row_refuted); the _partial theorems exclude exactly that case.'),
 'C62':('partial','REFUTED for min_rule_samples and any unlisted name; proved for the listed hyperparameters.'),
 'C59':('partial','REFUTED at verbosity 5 (C59_verbosity_refuted, C59_no_features_refuted). Proved: below 5, never another model; at every verbosity for IREP, and for RIPPER with prune_size > 0, when the table has a feature and distinct labels.'),
 'C57':('partial','Object-graph model of arbitrary programs over several models. REFUTED when one Rule object is added to two models (C57_shared_rule_refuted) and when IREP.fit fails on an initial model given as an object (C57_failed_fit_refuted). Proved for every other program.'),
 'C64':('partial','REFUTED for cn_optimize=False (set order depends on the hash seed, C64_set_order_refuted) and for text row labels (C64_text_labels_refuted). Proved for the default engine: the model depends only on data, hyperparameters and the random draws.'),
 'C66':('proved','For every state the classifier was in before.'),
 'C67':('partial','REFUTED for both classifiers (C67_irep_failed_fit_refuted, C67_ripper_failed_fit_refuted). Proved: what the failing call can have changed.'),
 'C65':('partial','REFUTED for repeated row labels and for binned columns mixing numbers and bin labels. Proved for every two other batches: equal cells give equal predictions, reasons and probabilities.'),
 'C68':('partial','REFUTED right after fit (C68_predict_is_threshold_refuted, C68_initial_model_refuted). Proved for rulesets whose stored rule probabilities are above and uncovered probability at most one half.'),
 'C69':('partial','REFUTED for conditions containing commas or blanks (C69_out_model_refuted) and truncstr(0, "right") (C69_truncstr_zero_refuted); proved for all other text and limits.'),
 'C70':('proved','All eight editing calls.'),
 'C71':('proved',''),
 'C72':('proved','At the level of the learners and of fit; RIPPER started from an initial model is not claimed (the property excludes it).'),
 'C73':('proved','At the level of the learners and of fit.'),
 'C74':('proved','Both engines, any initial rules that have a description length; the allowance is an integer number of bits (the default is 64).'),
 'C75':('proved','Savings and absence of new duplicates: both engines. The complete rule of choice: default engine (cn_optimize=True) with prune_size > 0.'),
 'C76':('proved','Both learners, both engines.'),
 'C77':('proved','All positives: both engines. Exact reproduction: default engine, under the stated conditions.'),
 'C78':('proved','Rows are passed as a list of rows; a NumPy array of dtype object, whose columns pandas does not regard as numeric, is outside the model.'),
 'C79':('partial','"Exactly" is false when a column has missing values (C79_missing_value_refuted). Proved: every discretised feature is as claimed, and every numeric column without missing values that has more than n different values is discretised. Edges are those of the pandas model (Cut.v).'),
 'C80':('proved','prune_size in [0,1], distinct row labels, no initial model, pos_class given.'),
 'C81':('partial','No rule is returned twice up to the order of its conditions, for every initial model (C81_no_repeated_rules); two == rules can survive together only if one repeats a condition, which learned rules never do (C81_learned_rules_differ). The unrestricted claim about == is refuted for initial models with repeated conditions.'),
 'C82':('proved','C82_missing_values for predict, reasons and probabilities of any ready classifier; C82_never_learned for fit without an initial model.'),
 'C83':('partial','REFUTED: IREP refits the bins, so a kept rule may never match again; RIPPER may drop the initial rules. Proved for IREP without max_total_conds, rows being read through the bins of the new model (C83_warm_start).'),
 'C84':('proved','C84_feature_lists; the last clause assumes that different conditions print differently (text_tells).'),
 'C85':('proved','Answers must be as many as the rows.'),
 'C86':('proved','DataFrame.sample is assumed to return k of the rows without repetition (sample_ok); row labels must be distinct.'),
 'C87':('proved','RIPPER is covered when started without an initial model (IREP with any).'),
 'C88':('proved','Not claimed for RIPPER, whose optimisation rounds replace rules in place.'),
 'C89':('proved','C89_unfitted'),
 'C90':('proved','C90_not_yet, C90_then'),
 'C91':('proved','C91_irep_training, C91_fit_is_irep; C91_run_covers, C91_run_idle show what the relation entails'),
 'C92':('proved','C92_ripper_training, C92_fit_is_ripper; C92_run_empty and C92_first_kept show what the relation entails'),
 'C93':('proved','proved for each call in any store and for histories of calls'),
 'C94':('proved',''),
 'C95':('proved',''),
 'C96':('proved',''),
 'C97':('proved',''),
 'C98':('proved',''),
 'C99':('proved','cn_optimize=True and IREP only, as the claim says; refuted for RIPPER and for a copy left of the original.'),
 'C100':('proved','cn_optimize=True only, as the claim says; the condition on first appearance is needed (C100_first_appearance_refuted).'),
 'C101':('proved',"dl_allowance >= 0 and prune_size > 0 as in C92 (without pruning the optimisation raises); the counting with multiplicity is the code's, C101_counted_twice shows it differs from the standard one"),
 'C102':('partial','REFUTED as stated: the limits are rounded to hundredths, which can leave one value of nine in one of two bins (C102_balanced_refuted). Proved: number of bins and limits (C102_limits_are_quantiles), the limits of columns with repeated values (C102_every_limit), and the balance when rounding moves no training value (C102_balanced_partial).'),
 'C103':('proved','Both variants of the algorithm (cn_optimize True and False). The example halts at iteration 2 after a first pass that changed the rules.'),
 'C104':('proved','Tables with repeated row labels are outside (C02).'),
 'C105':('proved','RIPPER without pruning usually raises in its optimisation stage (C35); the theorem covers its successful calls. The hash function and the cutting of columns are the same in both runs.'),
 'C106':('proved',"With max_total_conds set, fit's model warnings speak of the rules before trimming: C106_trimmed_refuted. The warnings of the recalibration docstring are not in the code that runs."),
 'C107':('proved','set_params between the calls is excluded from the history theorem, because it can change alpha. A failing recalibration can leave some rules updated and others not (C42 covers the predictions); the theorem says this is repaired by the next success.'),
 'C108':('proved','The rules of IREP are already replaced when the exception is raised (C67).'),
 'C109':('proved',''),
 'C110':('proved','The first prediction of the new classifier may raise (C109).'),
 'C111':('proved',''),
 'C112':('proved','n_discretize_bins None or >= 0. The table is the internal training table (training_df), which is the DataFrame itself when the labels are one of its columns; C78 relates the other forms.'),
 'C113':('proved','set_params with names that are not hyperparameters (which the code would store as attributes) is outside the model.'),
 'C114':('proved','Exact arithmetic, as everywhere for scores.'),
 'C115':('proved','rule count for IREP and for RIPPER with cn_optimize=True; condition count per rule for all; C115_rule_count for every engine and initial model (a weaker bound)'),
 'C116':('proved',''),
}
