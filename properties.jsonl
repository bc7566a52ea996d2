{"id": "C01", "title": "predict is the DNF of the rules", "statement": "For a dataframe whose index labels are pairwise distinct and that has every feature the rules mention, Ruleset.predict returns one boolean per row, in row order, and the boolean is True exactly when some rule has all of its conditions satisfied by that row (an empty rule is satisfied by every row, an empty ruleset by none).", "quantifier": "every ruleset (any number of rules, conditions, duplicates, values of any modelled type incl. missing) and every dataframe with distinct labels", "why_tests_cant": "a test samples finitely many rulesets and frames; the claim is an equivalence with a logical formula for all of them", "anchors": ["wittgenstein/base.py:Ruleset.predict", "wittgenstein/base.py:Ruleset.covers", "wittgenstein/base.py:Rule.covers", "wittgenstein/base.py:Cond.covers"]}
{"id": "C02", "title": "predict does not depend on the index labels of the data", "statement": "The prediction for a row depends only on the row's cell values: relabelling the dataframe's index (to any labels, repeated or not) does not change predict's output.", "quantifier": "every ruleset, every dataframe and every relabelling of its index, including indexes with repeated labels (e.g. after concat without ignore_index)", "why_tests_cant": "index uniqueness is an implicit assumption no example with a default RangeIndex can reveal", "anchors": ["wittgenstein/base.py:Ruleset.predict"]}
{"id": "C03", "title": "give_reasons lists exactly the covering rules", "statement": "With give_reasons=True (distinct labels) the reasons list for each row is exactly the sub-list, in ruleset order, of the rules whose conditions the row satisfies; it is empty exactly for the rows predicted False; and the predictions are the same as without give_reasons.", "quantifier": "every ruleset and every dataframe with distinct index labels", "why_tests_cant": "needs the exact list for every row of every frame and every overlap pattern of the rules", "anchors": ["wittgenstein/base.py:Ruleset.predict"]}
{"id": "C04", "title": "rule coverage is the conjunction, order- and content-preserving", "statement": "Rule.covers(df) returns exactly the rows of df satisfying every condition, unchanged and in the original order; permuting or repeating conditions does not change the result, appending a condition can only remove rows, covering twice equals covering once.", "quantifier": "every rule, every permutation of its conditions, every dataframe having the rule's features", "why_tests_cant": "universally quantified algebraic laws over arbitrary condition lists", "anchors": ["wittgenstein/base.py:Rule.covers", "wittgenstein/base.py:Cond.covers"]}
{"id": "C05", "title": "ruleset coverage counts each covered example once", "statement": "Ruleset.covers(df) / num_covered(df) return each covered example exactly once, so num_covered is the number of rows satisfying at least one rule.", "quantifier": "every ruleset (with overlapping rules) and every dataframe", "why_tests_cant": "only shows when rules overlap on the data; a spot check with disjoint rules passes", "anchors": ["wittgenstein/base.py:Ruleset.covers", "wittgenstein/base.py:Ruleset.num_covered"]}
{"id": "C06", "title": "missing features are never silently ignored", "statement": "If some rule mentions a feature that is not a column of the prediction frame, predict raises an error (KeyError/IndexError) unless the ruleset contains the empty rule, in which case every prediction is True; predict never returns a wrong boolean list because a column is absent.", "quantifier": "every ruleset, every frame, every set of missing columns, also when earlier conditions already exclude every row", "why_tests_cant": "the absence of a silent wrong answer must hold for all rule/column combinations", "anchors": ["wittgenstein/base.py:Cond.covers", "wittgenstein/check.py:_check_model_features_present"]}
{"id": "C07", "title": "predictions ignore columns the rules do not mention", "statement": "Adding, dropping, reordering or changing the cells of columns that no rule mentions changes neither predict's output nor its reasons.", "quantifier": "every ruleset and every pair of frames that agree, row by row, on the mentioned features", "why_tests_cant": "a non-interference statement over all pairs of frames", "anchors": ["wittgenstein/base.py:Ruleset.predict", "wittgenstein/abstract_ruleset_classifier.py:AbstractRulesetClassifier.predict"]}
{"id": "C08", "title": "Rule equality is an equivalence insensitive to condition order", "statement": "Rule == is reflexive, symmetric and transitive and two rules whose condition lists are permutations of each other are equal; Ruleset == is an equivalence insensitive to rule order and repetition.", "quantifier": "all rules and rulesets", "why_tests_cant": "equivalence laws range over all triples of rules", "anchors": ["wittgenstein/base.py:Rule.__eq__", "wittgenstein/base.py:Ruleset.__eq__"]}
{"id": "C09", "title": "equal rules have equal hashes", "statement": "If r1 == r2 then hash(r1) == hash(r2), as sets and dicts (and remove_duplicates) require.", "quantifier": "all pairs of rules, whatever the hash function", "why_tests_cant": "contract over all pairs; violated only by particular repeated-condition patterns", "anchors": ["wittgenstein/base.py:Rule.__eq__", "wittgenstein/base.py:Rule.__hash__", "wittgenstein/utils.py:remove_duplicates"]}
{"id": "C10", "title": "equal rules cover the same examples", "statement": "If r1 == r2 then they cover the same rows of every dataframe, and if two rulesets are == they make the same predictions on every dataframe.", "quantifier": "all pairs of rules / rulesets and all dataframes", "why_tests_cant": "equality is decided on printed text; only a proof can say which values make text equality unsound", "anchors": ["wittgenstein/base.py:Rule.__eq__", "wittgenstein/base.py:Ruleset.__eq__", "wittgenstein/base.py:Cond.__str__"]}
{"id": "C11", "title": "printed rulesets parse back to themselves", "statement": "Reading back the text of a ruleset (str then init_ruleset/asruleset) yields a ruleset with the same rules and conditions, so it makes the same predictions.", "quantifier": "all rulesets the library can hold or produce", "why_tests_cant": "round-trip over all strings; the reserved characters (V ^ = [ ] , ' space) are exactly where it breaks", "anchors": ["wittgenstein/base.py:Rule.__str__", "wittgenstein/base.py:Ruleset.__str__", "wittgenstein/base.py:ruleset_fromstr", "wittgenstein/base.py:rule_fromstr", "wittgenstein/base.py:cond_fromstr"]}
{"id": "C12", "title": "malformed rule text is rejected", "statement": "A condition string without exactly one '=' is rejected with ValueError, wherever it occurs in a rule or ruleset string, and text that is accepted yields precisely the conditions whose trimmed left and right sides were written.", "quantifier": "all input strings", "why_tests_cant": "quantifies over every string, not a list of bad examples", "anchors": ["wittgenstein/base.py:cond_fromstr", "wittgenstein/base.py:rule_fromstr", "wittgenstein/base.py:ruleset_fromstr"]}
{"id": "C13", "title": "rule editing refines list editing", "statement": "add_rule, insert_rule_at, remove_rule_at, replace_rule_at and their by-value versions change the rule list exactly like append/insert/delete/assign on a list at the given index (by value: at the first equal rule); any index outside 0..len-1 raises IndexError, an absent rule raises ValueError, and a failing call leaves the model unchanged.", "quantifier": "every model, every sequence of editing operations, every (also negative) index", "why_tests_cant": "histories of arbitrary length; failure atomicity at every step", "anchors": ["wittgenstein/base.py:Ruleset.add", "wittgenstein/base.py:Ruleset.insert", "wittgenstein/base.py:Ruleset.remove", "wittgenstein/base.py:Ruleset.replace", "wittgenstein/base.py:Ruleset.insert_rule", "wittgenstein/base.py:Ruleset.remove_rule", "wittgenstein/base.py:Ruleset.replace_rule", "wittgenstein/check.py:_check_valid_index", "wittgenstein/check.py:_check_rule_exists"]}
{"id": "C14", "title": "duplicate removal keeps first occurrences and predictions", "statement": "remove_duplicates returns a sub-list in order containing the first occurrence of each rule, with no two rules that are equal and hash alike, containing a rule equal to each original one, whatever the hash function; so predictions do not change when equal rules cover the same rows.", "quantifier": "every list of rules and every hash function", "why_tests_cant": "depends on eq/hash interplay for arbitrary rule lists", "anchors": ["wittgenstein/utils.py:remove_duplicates", "wittgenstein/irep.py:IREP.fit", "wittgenstein/ripper.py:RIPPER.fit"]}
{"id": "C15", "title": "trimming yields the longest admissible prefix", "statement": "trim_conds(max_total_conds=m) leaves the longest prefix of the rule list whose total number of conditions is at most m (nothing is changed for None), and never fails for m >= 0.", "quantifier": "every ruleset and every bound", "why_tests_cant": "maximality over all prefixes", "anchors": ["wittgenstein/base.py:Ruleset.trim_conds"]}
{"id": "C16", "title": "grow/prune splits partition the data", "statement": "random_split, set_shuffled_split and df_shuffled_split return two parts that together contain every element exactly once, with the first part of the computed size, for every shuffle; a split of a non-empty set with a proportion below 1 leaves the second part non-empty.", "quantifier": "every input collection, every split proportion in [0,1], every outcome of the random shuffle, any rounding of the size computation", "why_tests_cant": "quantifies over all shuffles, i.e. all seeds", "anchors": ["wittgenstein/base_functions.py:random_split", "wittgenstein/base_functions.py:set_shuffled_split", "wittgenstein/base_functions.py:df_shuffled_split"]}
{"id": "C17", "title": "pos/neg split is a partition", "statement": "pos_neg_split puts every training row in exactly one of the two frames: the positive one exactly when its label equals pos_class (missing labels are negative), preserving order; num_pos + num_neg is the number of rows.", "quantifier": "every labelled frame and pos_class", "why_tests_cant": "exhaustive over label types including missing labels", "anchors": ["wittgenstein/base_functions.py:pos_neg_split", "wittgenstein/base_functions.py:pos", "wittgenstein/base_functions.py:neg", "wittgenstein/base_functions.py:num_pos", "wittgenstein/base_functions.py:num_neg"]}
{"id": "C18", "title": "removing covered examples removes exactly those", "statement": "rm_covered keeps exactly the rows not covered by the object (distinct labels), in order, and rm_rule_covers_cn keeps exactly the uncovered indices.", "quantifier": "every rule/ruleset and every frame or index set", "why_tests_cant": "set equality over all inputs", "anchors": ["wittgenstein/base_functions.py:rm_covered", "wittgenstein/base_functions.py:rm_rule_covers_cn"]}
{"id": "C19", "title": "combinatorial helpers are correct", "statement": "nCr(n, r) is the binomial coefficient for all 0 <= r <= n; argmin returns the first index of a minimum; i_replaced replaces (or, for None, deletes) exactly the i-th element.", "quantifier": "all n, r; all non-empty lists; all indices", "why_tests_cant": "exact integer division for all sizes", "anchors": ["wittgenstein/base_functions.py:nCr", "wittgenstein/base_functions.py:argmin", "wittgenstein/base_functions.py:i_replaced"]}
{"id": "C20", "title": "the CatNap index agrees with direct coverage", "statement": "For a training frame with distinct labels, cond_covers, rule_covers and ruleset_covers of the CatNap index over any subset of the frame's labels return exactly the labels of the rows that the condition / rule / ruleset covers, also for conditions whose value or feature does not occur in the data.", "quantifier": "every training frame with distinct labels, every condition, rule and ruleset, every subset of labels including the empty one", "why_tests_cant": "refinement between two implementations for all rulesets and subsets; the corner cases (universal ruleset with empty subset) are what samples miss", "anchors": ["wittgenstein/catnap.py:CatNap"]}
{"id": "C21", "title": "cn_optimize is only a speed optimisation", "statement": "Fitting with cn_optimize=True and cn_optimize=False gives the same ruleset for the same data and random choices.", "quantifier": "every training set, hyperparameters, random choices", "why_tests_cant": "compares two whole algorithms on every input", "anchors": ["wittgenstein/irep.py:IREP._grow_ruleset", "wittgenstein/irep.py:IREP._grow_ruleset_cn", "wittgenstein/ripper.py:RIPPER._grow_ruleset", "wittgenstein/ripper.py:RIPPER._grow_ruleset_cn", "wittgenstein/base.py:Ruleset._update_possible_conds"]}
{"id": "C22", "title": "the best successor maximises FOIL gain", "statement": "best_rule_successor_cn / best_successor return the rule extended by the first candidate condition of maximal FOIL information gain, and return None exactly when no candidate has positive gain.", "quantifier": "every rule, candidate list and positive/negative example sets", "why_tests_cant": "maximality over all candidates, with exact real-valued comparison of logarithms", "anchors": ["wittgenstein/base_functions.py:best_rule_successor_cn", "wittgenstein/base_functions.py:best_successor", "wittgenstein/base_functions.py:gain", "wittgenstein/base_functions.py:gain_cn"]}
{"id": "C23", "title": "growing a rule always terminates and only specialises it", "statement": "grow_rule / grow_rule_cn terminate on every input; without min_rule_samples the result extends the initial rule by conditions from the candidate list, no condition is added twice, every added condition strictly reduces the number of covered negatives and keeps at least one covered positive; growth stops only when no negative is covered, a user limit is hit, or no candidate has positive gain.", "quantifier": "every initial rule, example sets, candidate list and limits", "why_tests_cant": "termination and loop invariants for unbounded data", "anchors": ["wittgenstein/base_functions.py:grow_rule", "wittgenstein/base_functions.py:grow_rule_cn"]}
{"id": "C24", "title": "pruning returns the shortest best non-empty prefix", "statement": "prune_rule / prune_rule_cn return a non-empty prefix of the rule; no longer prefix of the rule has a strictly larger metric, every shorter non-empty prefix has a strictly smaller metric (when some metric value is >= 0; otherwise the rule is returned unchanged); an empty rule is returned unchanged.", "quantifier": "every rule, every prune set and every metric", "why_tests_cant": "optimality over all prefixes for arbitrary metrics", "anchors": ["wittgenstein/base_functions.py:prune_rule", "wittgenstein/base_functions.py:prune_rule_cn"]}
{"id": "C25", "title": "IREP fit terminates without internal errors", "statement": "For every training set with distinct index labels, prune_size in [0,1], alpha > 0 and no initial model, IREP.fit (default cn_optimize) terminates and returns a fitted model: no division by zero, no internal exception, no endless loop.", "quantifier": "every training set, hyperparameter setting, every random shuffle", "why_tests_cant": "termination/totality for all data and all seeds", "anchors": ["wittgenstein/irep.py:IREP.fit", "wittgenstein/irep.py:IREP._grow_ruleset_cn"]}
{"id": "C26", "title": "learned conditions come from the training data, never from the class column", "statement": "Without an initial model every condition of a ruleset learned by IREP or RIPPER is feature=value where feature is a non-class training column and value occurs in that column; every non-empty learned rule covers at least one positive training example (IREP).", "quantifier": "every training set, hyperparameters, random choices", "why_tests_cant": "invariant of the whole learning loop", "anchors": ["wittgenstein/irep.py:IREP.fit", "wittgenstein/ripper.py:RIPPER.fit", "wittgenstein/catnap.py:CatNap.possible_conds"]}
{"id": "C27", "title": "every rule IREP accepts passed the precision check", "statement": "Each rule IREP adds while pruning had precision at least one half on its prune set (and covered a positive there); if IREP stops early for lack of precision, nothing is added afterwards.", "quantifier": "every training set and every shuffle", "why_tests_cant": "invariant over all loop iterations and random splits", "anchors": ["wittgenstein/irep.py:IREP._grow_ruleset_cn", "wittgenstein/base_functions.py:rule_precision_cn"]}
{"id": "C28", "title": "without pruning IREP covers every positive", "statement": "With prune_size=0/None and no early-stopping limit the ruleset IREP learns covers every positive training example, and if moreover no positive row agrees with a negative row on all features, there are no missing values and no per-rule limit is set (default cn_optimize), it covers no negative training example.", "quantifier": "every training set", "why_tests_cant": "a completeness guarantee over all data", "anchors": ["wittgenstein/irep.py:IREP._grow_ruleset_cn"]}
{"id": "C29", "title": "IREP keeps the rules of the initial model", "statement": "Fitting from an initial model returns a ruleset that starts with the initial model's (de-duplicated) rules in order (unless trimmed by max_total_conds), and the initial model object is not changed.", "quantifier": "every initial model, training set, hyperparameters", "why_tests_cant": "relational property of the entire fit", "anchors": ["wittgenstein/irep.py:IREP.fit", "wittgenstein/abstract_ruleset_classifier.py:AbstractRulesetClassifier._ruleset_frommodel"]}
{"id": "C30", "title": "max_rules is respected", "statement": "After fit with max_rules=m the ruleset has at most m rules (or at most as many as the initial model if that is more).", "quantifier": "every training set, hyperparameters, random choices, both learners", "why_tests_cant": "bound through all stages of the learner for every input", "anchors": ["wittgenstein/base_functions.py:stop_early", "wittgenstein/irep.py:IREP.fit", "wittgenstein/ripper.py:RIPPER.fit"]}
{"id": "C31", "title": "max_rule_conds is respected", "statement": "After fit with max_rule_conds=m every learned rule has at most m conditions.", "quantifier": "every training set, hyperparameters, random choices, both learners", "why_tests_cant": "must hold after growing, optimising and pruning for all data", "anchors": ["wittgenstein/base_functions.py:grow_rule_cn", "wittgenstein/irep.py:IREP.fit", "wittgenstein/ripper.py:RIPPER._optimize_ruleset_cn"]}
{"id": "C32", "title": "max_total_conds is respected", "statement": "After fit with max_total_conds=m >= 0 the ruleset has at most m conditions in total, initial model included.", "quantifier": "every training set, hyperparameters, random choices, both learners", "why_tests_cant": "bound for every input", "anchors": ["wittgenstein/base.py:Ruleset.trim_conds", "wittgenstein/irep.py:IREP.fit", "wittgenstein/ripper.py:RIPPER.fit"]}
{"id": "C33", "title": "min_rule_samples is respected", "statement": "With min_rule_samples=m every rule returned by rule growing covers at least m of the examples it was grown on (or is empty).", "quantifier": "every growing set and limit", "why_tests_cant": "loop invariant at each exit of the growing loop", "anchors": ["wittgenstein/base_functions.py:grow_rule_cn", "wittgenstein/base_functions.py:grow_rule"]}
{"id": "C34", "title": "RIPPER fit terminates without internal errors", "statement": "For every training set with distinct index labels, 0 < prune_size < 1, alpha > 0, any k and no initial model, RIPPER.fit (default cn_optimize) terminates and returns a fitted model; no logarithm of zero, division by zero, unbound variable or None rule occurs.", "quantifier": "every training set, hyperparameters, every random shuffle", "why_tests_cant": "totality over all data and seeds, through four stages", "anchors": ["wittgenstein/ripper.py:RIPPER.fit", "wittgenstein/ripper.py:_r_theory_bits", "wittgenstein/ripper.py:_exceptions_bits_cn"]}
{"id": "C35", "title": "RIPPER accepts prune_size=None as documented", "statement": "RIPPER with prune_size None/0 (documented way to skip pruning) fits any training set without raising.", "quantifier": "every training set", "why_tests_cant": "needs the optimisation stage on data where the replacement rule wins", "anchors": ["wittgenstein/ripper.py:RIPPER._optimize_ruleset_cn", "wittgenstein/base_functions.py:prune_rule_cn"]}
{"id": "C36", "title": "description length is well defined and has its documented value", "statement": "In the default fit, the theory bits of a rule equal max(1, (log2 k + k log2(n/k) + (n-k) log2(n/(n-k)))/2) for k = max(1, number of conditions) and n candidate conditions whenever k < n, the exception bits equal log2 C(p,fp) + log2 C(N-p,fn) with non-negative arguments, and the total is their sum.", "quantifier": "every ruleset, index and example sets", "why_tests_cant": "real-valued identity for all sizes", "anchors": ["wittgenstein/ripper.py:_r_theory_bits", "wittgenstein/ripper.py:_rs_theory_bits", "wittgenstein/ripper.py:_exceptions_bits_cn", "wittgenstein/ripper.py:_rs_total_bits_cn"]}
{"id": "C37", "title": "the final MDL stage only removes rules and never increases description length", "statement": "Stage 4 of RIPPER.fit returns a sub-list of the rules in order, containing the first one, and its total description length is at most that of the ruleset it started from.", "quantifier": "every ruleset and training set", "why_tests_cant": "optimality claim over all rulesets; greedy subset selection can fail", "anchors": ["wittgenstein/ripper.py:_rs_total_bits_cn", "wittgenstein/ripper.py:RIPPER.fit"]}
{"id": "C38", "title": "optimisation rewrites rules in place", "statement": "An optimisation pass keeps the number of rules, and each rule of the result is the original rule at that position or a new rule grown and pruned for that position.", "quantifier": "every ruleset, training set and shuffle", "why_tests_cant": "loop invariant over all passes", "anchors": ["wittgenstein/ripper.py:RIPPER._optimize_ruleset_cn"]}
{"id": "C39", "title": "covering remaining positives leaves a complete ruleset alone", "statement": "If the optimised ruleset already covers every positive training example, the 'cover remaining positives' stage adds no rules.", "quantifier": "every ruleset that covers all positives and every training set", "why_tests_cant": "requires reasoning about which examples are considered remaining, for all data", "anchors": ["wittgenstein/ripper.py:RIPPER._cover_remaining_positives", "wittgenstein/ripper.py:RIPPER._cover_remaining_positives_cn"]}
{"id": "C40", "title": "predicted probabilities are probabilities", "statement": "On a fitted model with alpha > 0, for data with distinct labels, every row of predict_proba has entries in [0,1] (strictly inside) that sum to 1; rows predicted negative all get the same probabilities; the probability for a row predicted positive is the mean of the smoothed class frequencies of exactly its covering rules.", "quantifier": "every fitted model and every prediction frame", "why_tests_cant": "arithmetic over all counts and overlap patterns", "anchors": ["wittgenstein/base.py:Ruleset.predict_proba", "wittgenstein/utils.py:weighted_avg_freqs", "wittgenstein/base_functions.py:additive_smoothed_rates"]}
{"id": "C41", "title": "class statistics count the calibration data", "statement": "After recalibrate_proba each rule's class counts are the numbers of negative and positive calibration rows it covers, the uncovered counts are those of the rows no rule covers, frequencies are those counts divided by their sum and smoothed rates are (count+alpha)/(total+2 alpha).", "quantifier": "every model, calibration frame with distinct labels, alpha", "why_tests_cant": "exact counting for all frames", "anchors": ["wittgenstein/base_functions.py:recalibrate_proba", "wittgenstein/base_functions.py:additive_smoothed_rates"]}
{"id": "C42", "title": "recalibration never changes predictions", "statement": "recalibrate_proba changes only probability estimates: rules, their order, their conditions and all predictions are the same before and after.", "quantifier": "every model, calibration data and every later prediction frame", "why_tests_cant": "frame property over all later inputs", "anchors": ["wittgenstein/base_functions.py:recalibrate_proba", "wittgenstein/abstract_ruleset_classifier.py:AbstractRulesetClassifier.recalibrate_proba"]}
{"id": "C43", "title": "require_min_samples halts recalibration", "statement": "With require_min_samples=True, recalibrate_proba leaves the probability estimates unchanged (with a warning) if some rule lacks the required samples.", "quantifier": "every model, calibration data, min_samples", "why_tests_cant": "documented guard must hold for all data", "anchors": ["wittgenstein/base_functions.py:recalibrate_proba"]}
{"id": "C44", "title": "probabilities are available after editing the model", "statement": "After add_rule / insert / replace on a fitted classifier predict_proba still returns probabilities for every row.", "quantifier": "every fitted classifier, edit history and prediction frame", "why_tests_cant": "histories of API calls", "anchors": ["wittgenstein/abstract_ruleset_classifier.py:AbstractRulesetClassifier.add_rule", "wittgenstein/base.py:Ruleset.predict_proba"]}
{"id": "C45", "title": "scores are the textbook metrics", "statement": "score_accuracy, score_precision, score_recall and score_f1 equal (tp+tn)/n, tp/(tp+fp), tp/(tp+fn) and 2tp/(2tp+fp+fn) of the two label lists, lie in [0,1], return None exactly when the denominator is zero (for F1: exactly when there is no true positive, a deviation from the textbook 0), and raise ValueError exactly when the lengths differ.", "quantifier": "all pairs of boolean lists", "why_tests_cant": "identities for lists of every length", "anchors": ["wittgenstein/base_functions.py:score_accuracy", "wittgenstein/base_functions.py:score_precision", "wittgenstein/base_functions.py:score_recall", "wittgenstein/base_functions.py:score_f1", "wittgenstein/base_functions.py:_f1"]}
{"id": "C46", "title": "score is the metric of predict against y == pos_class", "statement": "classifier.score(X, y) with the default metric is the fraction of rows whose prediction equals (y == pos_class).", "quantifier": "every model, frame and label list", "why_tests_cant": "identity for all data", "anchors": ["wittgenstein/abstract_ruleset_classifier.py:AbstractRulesetClassifier.score", "wittgenstein/ripper.py:RIPPER.score"]}
{"id": "C47", "title": "rule_stats reports true per-rule statistics", "statement": "For data with distinct labels rule_stats gives, per rule in order, n_covered = number of rows covered, coverage = n_covered / rows, and (with y) the precision, recall and F1 of 'rule covers row' against 'y == pos_class'.", "quantifier": "every model, frame, label list", "why_tests_cant": "identity for all data and overlap patterns", "anchors": ["wittgenstein/abstract_ruleset_classifier.py:AbstractRulesetClassifier.rule_stats"]}
{"id": "C48", "title": "bin labels parse back to the same interval", "statement": "For every interval with finite decimal or infinite ends, turning it into its bin label and parsing the label back gives the same interval, including negative ends.", "quantifier": "all intervals with finite decimal ends and the two half-lines", "why_tests_cant": "round-trip over all numbers, negative ones being the delicate case", "anchors": ["wittgenstein/discretize.py:BinTransformer._interval_to_str", "wittgenstein/discretize.py:BinTransformer._str_to_floor_ceil", "wittgenstein/discretize.py:BinTransformer.find_floor_ceil"]}
{"id": "C49", "title": "every number falls in exactly one bin", "statement": "After fit, the bins of a feature are ordered, disjoint and cover the whole number line, so transform maps every number (seen or not) to exactly one bin, whose interval (lower end exclusive, upper end inclusive) contains it.", "quantifier": "every list of training intervals produced by the cut, every number at prediction time", "why_tests_cant": "covers unseen values in gaps and on boundaries", "anchors": ["wittgenstein/discretize.py:BinTransformer.fit", "wittgenstein/discretize.py:BinTransformer.transform", "wittgenstein/discretize.py:BinTransformer._pandas_cut"]}
{"id": "C50", "title": "the numpy engine assigns the bin that contains the value", "statement": "With engine='numpy', transform assigns each number the bin whose interval contains it under the documented convention (min exclusive, max inclusive).", "quantifier": "every strictly increasing threshold list and every number, including the thresholds themselves", "why_tests_cant": "boundary values are the only counterexamples", "anchors": ["wittgenstein/discretize.py:BinTransformer.transform", "wittgenstein/discretize.py:BinTransformer._numpy_cut"]}
{"id": "C51", "title": "transform is idempotent on transformed data and rejects foreign bins", "statement": "transform leaves an already transformed column unchanged, and raises ValueError when a text column for a binned feature contains a value that is not one of the fitted bins.", "quantifier": "every fitted transformer and frame", "why_tests_cant": "all frames, including missing values", "anchors": ["wittgenstein/discretize.py:BinTransformer.transform", "wittgenstein/discretize.py:BinTransformer._find_transformed"]}
{"id": "C52", "title": "positive class inference is sound", "statement": "When pos_class is not given, fit uses True for labels {False,True}, 1 for {0,1}, the documented value for a single label, and raises for anything else; a given pos_class is used as is.", "quantifier": "every label column", "why_tests_cant": "decision table over all label sets", "anchors": ["wittgenstein/preprocess.py:_get_pos_class"]}
{"id": "C53", "title": "labels are attached to the right rows", "statement": "fit with separate X and y labels the i-th row of X with the i-th element of y whatever the index of X or y, and raises an error if the lengths differ.", "quantifier": "every X and y (list or Series with any index) ", "why_tests_cant": "depends on index alignment for arbitrary labels and lengths", "anchors": ["wittgenstein/preprocess.py:_convert_to_training_df"]}
{"id": "C54", "title": "hyperparameters survive get_params / reconstruction", "statement": "Rebuilding a classifier from get_params() (as sklearn's clone, cross_val_score and GridSearchCV do) gives a classifier with the same hyperparameters.", "quantifier": "every hyperparameter setting of both classifiers", "why_tests_cant": "round trip over all settings", "anchors": ["wittgenstein/abstract_ruleset_classifier.py:AbstractRulesetClassifier.__init__", "wittgenstein/abstract_ruleset_classifier.py:AbstractRulesetClassifier.get_params", "wittgenstein/ripper.py:RIPPER.get_params"]}
{"id": "C55", "title": "predict needs only the features of the current model", "statement": "A fitted classifier's predict succeeds on any frame that has the features its ruleset mentions.", "quantifier": "every training set, hyperparameters and prediction frame", "why_tests_cant": "relates state recorded during fit to the final ruleset for all fits", "anchors": ["wittgenstein/irep.py:IREP.fit", "wittgenstein/ripper.py:RIPPER.fit", "wittgenstein/check.py:_check_model_features_present"]}
{"id": "C56", "title": "prediction-side calls do not change the model", "statement": "predict, predict_proba, score, rule_stats and recalibrate_proba never change the rules, whatever the order and number of calls; every later prediction is the DNF of the current rules.", "quantifier": "every session: every finite sequence of API calls on a classifier", "why_tests_cant": "histories of arbitrary length", "anchors": ["wittgenstein/abstract_ruleset_classifier.py:AbstractRulesetClassifier"]}
{"id": "C57", "title": "editing one model does not affect another", "statement": "A classifier initialised or fitted from another model owns its rules: no later editing or recalibration of one changes the predictions or probabilities of the other.", "quantifier": "every pair of models and every later history of operations on either", "why_tests_cant": "aliasing through shared mutable objects over all histories", "anchors": ["wittgenstein/abstract_ruleset_classifier.py:AbstractRulesetClassifier._ruleset_frommodel", "wittgenstein/abstract_ruleset_classifier.py:AbstractRulesetClassifier.init_ruleset", "wittgenstein/irep.py:IREP.fit"]}
{"id": "C58", "title": "predict works on any model given as text or rules", "statement": "After init_ruleset with any well-formed ruleset, predict works on data that has the features (no exception from re-deriving bins).", "quantifier": "every ruleset text / object", "why_tests_cant": "depends on the number of dashes in arbitrary value strings", "anchors": ["wittgenstein/abstract_ruleset_classifier.py:AbstractRulesetClassifier._ensure_has_bin_transformer", "wittgenstein/discretize.py:BinTransformer.find_floor_ceil", "wittgenstein/discretize.py:BinTransformer.construct_from_ruleset"]}
{"id": "C59", "title": "verbosity only affects output", "statement": "Fitting with a higher verbosity gives the same result (or error) as with verbosity 0.", "quantifier": "every training set, hyperparameters and verbosity", "why_tests_cant": "all code paths that print must be side-effect and exception free", "anchors": ["wittgenstein/utils.py:rnd", "wittgenstein/base_functions.py:prune_rule_cn", "wittgenstein/base_functions.py:best_rule_successor_cn"]}
{"id": "C60", "title": "score_fidelity scores the interpreter against the model's own predictions", "statement": "score_fidelity returns, for one metric or each metric of a list in order, the metric of the interpreter's predictions against the black-box model's predictions on X; with neither model nor predictions it raises ValueError.", "quantifier": "every interpreter, black-box prediction function, data and list of metrics", "why_tests_cant": "parametric in arbitrary models and metrics", "anchors": ["wittgenstein/interpret.py:score_fidelity", "wittgenstein/interpret.py:model_predict", "wittgenstein/interpret.py:interpret_model"]}
{"id": "C61", "title": "labels may be given in any one-dimensional form", "statement": "fit accepts the labels as a list, tuple, array or Series, named or unnamed, and learns the same model from the same labels.", "quantifier": "every training frame and label sequence, every form of y", "why_tests_cant": "equivalence of all input forms for all data", "anchors": ["wittgenstein/preprocess.py:_preprocess_training_data", "wittgenstein/preprocess.py:_preprocess_y_data", "wittgenstein/irep.py:IREP.fit"]}
{"id": "C62", "title": "hyperparameters passed to fit take effect or are rejected", "statement": "A keyword argument passed to fit either overrides the corresponding hyperparameter of the classifier or is rejected; it is never silently ignored.", "quantifier": "every classifier, every keyword and value", "why_tests_cant": "all keyword names and values", "anchors": ["wittgenstein/abstract_ruleset_classifier.py:AbstractRulesetClassifier._set_deprecated_fit_params", "wittgenstein/abstract_ruleset_classifier.py:VALID_HYPERPARAMETERS", "wittgenstein/irep.py:IREP.fit", "wittgenstein/ripper.py:RIPPER.fit"]}
{"id": "C63", "title": "after fit the probabilities reflect the training data", "statement": "After a successful fit every rule's (negative, positive) counts, and the counts of the uncovered examples, are exactly those of the training data under the returned ruleset.", "quantifier": "every training set, hyperparameters and admissible sequence of random splits", "why_tests_cant": "relates the last steps of fit for all data", "anchors": ["wittgenstein/irep.py:IREP.fit", "wittgenstein/ripper.py:RIPPER.fit", "wittgenstein/base_functions.py:recalibrate_proba", "wittgenstein/base_functions.py:trim_rules"]}
{"id": "C64", "title": "random_state makes fit reproducible", "statement": "Fitting twice with the same data, hyperparameters and random_state gives the same model, also in another Python process (another hash seed).", "quantifier": "every training set, hyperparameters, random_state, and every pair of processes", "why_tests_cant": "unit tests run in one process with one hash seed; set iteration order and hash values vary between processes", "anchors": ["wittgenstein/base_functions.py:random_split", "wittgenstein/base_functions.py:df_shuffled_split", "wittgenstein/base.py:Rule.successors", "wittgenstein/irep.py:IREP.fit", "wittgenstein/ripper.py:RIPPER.fit"]}
{"id": "C65", "title": "prediction is row by row", "statement": "What predict (and the reasons) say about an example depends only on that example's own cells: predicting it in another batch, another order or with other row labels gives the same answer.", "quantifier": "every fitted classifier, every two batches and every row with the same cells in both", "why_tests_cant": "ranges over all pairs of batches", "anchors": ["wittgenstein/abstract_ruleset_classifier.py:AbstractRulesetClassifier.predict", "wittgenstein/preprocess.py:preprocess_prediction_data", "wittgenstein/base.py:Ruleset.predict", "wittgenstein/discretize.py:BinTransformer.transform"]}
{"id": "C66", "title": "refitting forgets the past", "statement": "fit without an initial model gives the same result on a classifier that was fitted, initialised or edited before as on a new classifier with the same hyperparameters.", "quantifier": "every classifier history and every training set", "why_tests_cant": "ranges over every earlier history of the object", "anchors": ["wittgenstein/irep.py:IREP.fit", "wittgenstein/ripper.py:RIPPER.fit", "wittgenstein/abstract_ruleset_classifier.py:AbstractRulesetClassifier"]}
{"id": "C67", "title": "a failing fit leaves the model as it was", "statement": "When fit raises, the classifier still predicts what it predicted before.", "quantifier": "every fitted classifier and every failing call of fit", "why_tests_cant": "ranges over every failing input and every point at which fit can raise", "anchors": ["wittgenstein/irep.py:IREP.fit", "wittgenstein/ripper.py:RIPPER.fit"]}
{"id": "C68", "title": "predict agrees with predict_proba", "statement": "predict says True exactly for the examples to which predict_proba gives the positive class a probability above one half.", "quantifier": "every fitted classifier and every example", "why_tests_cant": "two different computations compared on every model and input", "anchors": ["wittgenstein/abstract_ruleset_classifier.py:AbstractRulesetClassifier.predict_proba", "wittgenstein/base.py:Ruleset.predict_proba", "wittgenstein/base_functions.py:recalibrate_proba"]}
{"id": "C69", "title": "the printed model shows the rules", "statement": "out_model prints one line per rule in order with all its conditions; truncstr(limit) shows the first (last) limit rules and marks the omission, so a reader can tell models apart.", "quantifier": "every ruleset, every limit and direction", "why_tests_cant": "ranges over all texts of conditions and all rulesets", "anchors": ["wittgenstein/base.py:Ruleset.out_pretty", "wittgenstein/base.py:Ruleset.truncstr", "wittgenstein/abstract_ruleset_classifier.py:AbstractRulesetClassifier.out_model"]}
{"id": "C70", "title": "what an edit does to predictions", "statement": "After a successful add_rule / insert_rule / insert_rule_at, an example is predicted True exactly when it was before or the new rule holds for it; after remove_rule(_at), exactly the examples held only by the removed rule turn False; after replace_rule(_at), only examples for which the old or the new rule holds can change.", "quantifier": "every ready classifier, every successful edit and every batch of examples", "why_tests_cant": "ranges over all models, edits and batches", "anchors": ["wittgenstein/abstract_ruleset_classifier.py:AbstractRulesetClassifier.add_rule", "wittgenstein/abstract_ruleset_classifier.py:AbstractRulesetClassifier.remove_rule", "wittgenstein/abstract_ruleset_classifier.py:AbstractRulesetClassifier.replace_rule", "wittgenstein/abstract_ruleset_classifier.py:AbstractRulesetClassifier.insert_rule_at", "wittgenstein/base.py:Ruleset.predict"]}
{"id": "C71", "title": "rule order and repetition do not matter to predict", "statement": "Two classifiers with the same discretiser whose rulesets contain the same rules, in any order and any number of times, predict the same.", "quantifier": "every two such classifiers and every batch", "why_tests_cant": "ranges over all permutations and repetitions of all rulesets", "anchors": ["wittgenstein/abstract_ruleset_classifier.py:AbstractRulesetClassifier.predict", "wittgenstein/base.py:Ruleset.predict", "wittgenstein/base.py:Ruleset.covers"]}
{"id": "C72", "title": "no dead rules", "statement": "Every rule that fit learns (IREP: beyond the initial model; RIPPER: without an initial model, for any number of optimisation rounds) holds for at least one positive training example.", "quantifier": "every training table, hyperparameters, engine and random draw", "why_tests_cant": "ranges over all data sets and all random splits; the optimiser may replace any rule", "anchors": ["wittgenstein/irep.py:IREP.fit", "wittgenstein/ripper.py:RIPPER.fit", "wittgenstein/base_functions.py:grow_rule", "wittgenstein/base_functions.py:grow_rule_cn", "wittgenstein/ripper.py:RIPPER._optimize_ruleset"]}
{"id": "C73", "title": "a learned rule tests each feature at most once", "statement": "No rule that fit learns tests the same feature twice (so it has no contradictory and no redundant test), and no learned condition asks for a missing value.", "quantifier": "every training table, hyperparameters, engine and random draw", "why_tests_cant": "ranges over all data sets and all random splits", "anchors": ["wittgenstein/base_functions.py:grow_rule", "wittgenstein/base_functions.py:grow_rule_cn", "wittgenstein/base.py:Rule.successors", "wittgenstein/irep.py:IREP.fit", "wittgenstein/ripper.py:RIPPER.fit"]}
{"id": "C74", "title": "dl_allowance ends the growing of the ruleset, and only when exceeded", "statement": "While RIPPER grows a ruleset, no rule is added once the description length is more than dl_allowance bits above the shortest met since growing began; and growing ends only for that reason, because all positives are covered, because max_rules / max_total_conds / min_ruleset_samples is reached, or because no rule can be grown from the split of the examples left.", "quantifier": "every training table, initial model, allowance, engine and random draw", "why_tests_cant": "ranges over all growth histories; the minimum is a running quantity over all prefixes", "anchors": ["wittgenstein/ripper.py:RIPPER._grow_ruleset", "wittgenstein/ripper.py:RIPPER._grow_ruleset_cn", "wittgenstein/ripper.py:_exceptions_bits_cn", "wittgenstein/ripper.py:_r_theory_bits"]}
{"id": "C75", "title": "optimisation changes a rule only for a strict saving and chooses the cheapest alternative", "statement": "In an optimisation pass each rule is compared with a replacement grown from nothing and a revision grown from the rule; the cheapest in description length wins (the rule itself on a tie, then the replacement), except that a winner already in the ruleset is not used; so a rule changes only when that saves bits, and a ruleset without repeated rules keeps none.", "quantifier": "every ruleset, training set, engine and random draw", "why_tests_cant": "ranges over all rulesets and all random splits; compares real-valued costs", "anchors": ["wittgenstein/ripper.py:RIPPER._optimize_ruleset", "wittgenstein/ripper.py:RIPPER._optimize_ruleset_cn", "wittgenstein/base_functions.py:argmin"]}
{"id": "C76", "title": "predict works on the training data and agrees with what was learned", "statement": "After fit without an initial model, predict (with or without give_reasons) succeeds on the training data, given as it was to fit, without the class column, with other row labels or columns in another order; answer i says whether a rule holds of training row i, reasons i are the rules that do, and every rule is a reason for at least one positive training row.", "quantifier": "every training table, way of passing the labels, hyperparameters, learner and random draw", "why_tests_cant": "ranges over all data sets and random splits, and couples the discretiser fitted in training with the one applied in prediction", "anchors": ["wittgenstein/irep.py:IREP.fit", "wittgenstein/ripper.py:RIPPER.fit", "wittgenstein/abstract_ruleset_classifier.py:AbstractRulesetClassifier.predict", "wittgenstein/preprocess.py:preprocess_training_data", "wittgenstein/preprocess.py:preprocess_prediction_data", "wittgenstein/discretize.py:BinTransformer"]}
{"id": "C77", "title": "IREP without pruning reproduces its training labels", "statement": "IREP with prune_size=0 and no limits on the ruleset predicts True for every positive training row. If moreover the classes can be told apart by the features as binned, no value is missing, the rules have no limits and the default engine is used, it predicts exactly the training labels, and score on the training data is 1. (Assumption: different feature=value conditions of the data print differently.)", "quantifier": "every such training table and random draw", "why_tests_cant": "ranges over all data sets; the learner's loop has to be followed to its end", "anchors": ["wittgenstein/irep.py:IREP.fit", "wittgenstein/irep.py:IREP._grow_ruleset_cn", "wittgenstein/abstract_ruleset_classifier.py:AbstractRulesetClassifier.predict", "wittgenstein/abstract_ruleset_classifier.py:AbstractRulesetClassifier.score"]}
{"id": "C78", "title": "the form in which training data are passed does not matter", "statement": "Two calls of fit that agree on the feature columns and their values, the labels, the row index and the name of the class column do the same in every respect (same error, or the same rules, statistics, bins, positive class and feature lists), whether the labels are a column of the table (wherever it stands) or are given apart as a list, an array or a named Series, and whether the table is a DataFrame or a list of rows with feature_names.", "quantifier": "every pair of such calls, for IREP and RIPPER, every hyperparameter setting, initial model, engine and random draw", "why_tests_cant": "ranges over all pairs of calls, all data and all random draws", "anchors": ["wittgenstein/irep.py:IREP.fit", "wittgenstein/ripper.py:RIPPER.fit", "wittgenstein/preprocess.py:preprocess_training_data", "wittgenstein/preprocess.py:_convert_to_training_df", "wittgenstein/discretize.py:BinTransformer.find_continuous_feats", "wittgenstein/catnap.py:CatNap.__init__"]}
{"id": "C79", "title": "n_discretize_bins decides which columns are discretised and into how many bins", "statement": "After fit with n_discretize_bins=n the discretised features are exactly the numeric columns, the class apart, with more than n different values; each has at least 2 and at most n bins, in ascending order, the lowest without lower and the highest without upper limit. With None, 0 or 1 no feature is discretised.", "quantifier": "every training table, way of passing the labels, number of bins and learner", "why_tests_cant": "ranges over all numeric columns; the quantile and equal-width edges depend on all values", "anchors": ["wittgenstein/discretize.py:BinTransformer.fit", "wittgenstein/discretize.py:BinTransformer.find_continuous_feats", "wittgenstein/discretize.py:BinTransformer._pandas_cut", "wittgenstein/preprocess.py:preprocess_training_data"]}
{"id": "C80", "title": "only which rows are positive matters", "statement": "fit sees the labels only through \"is it the positive class?\": two training sets with the same features whose labels -- 0/1, yes/no, several classes, under any class column name, passed in any form -- mark the same rows as pos_class give the same rules, statistics, bins and feature lists, and the same predictions, reasons and probabilities.", "quantifier": "every training table, pair of label encodings, learner, hyperparameters, engine and random draw (no initial model)", "why_tests_cant": "relates two runs of the whole learner for every data set and every encoding", "anchors": ["wittgenstein/irep.py:IREP.fit", "wittgenstein/ripper.py:RIPPER.fit", "wittgenstein/base_functions.py:pos_neg_split", "wittgenstein/catnap.py:CatNap", "wittgenstein/discretize.py:BinTransformer.fit"]}
{"id": "C81", "title": "fit never returns the same rule twice", "statement": "The rules of a fitted classifier contain no rule twice, also not with its conditions in another order, whatever initial model was given; and rules learned from data in which different conditions print differently are pairwise unequal (==).", "quantifier": "every training call of IREP and RIPPER that succeeds: data, initial model, hyperparameters, engine, random choices, hash function", "why_tests_cant": "it must hold for every ruleset a fit can end with and for every hash function; collisions and repeated conditions decide it", "anchors": ["wittgenstein/irep.py:IREP.fit", "wittgenstein/ripper.py:RIPPER.fit", "wittgenstein/base.py:Ruleset.trim_conds", "wittgenstein/utils.py:remove_duplicates", "wittgenstein/base.py:Rule.__hash__"]}
{"id": "C82", "title": "missing values never satisfy a condition", "statement": "In predict, give_reasons and predict_proba, a rule never covers a row that has no value (NaN) for a feature the rule tests; a row that misses a feature of every rule is predicted negative, with no reasons and the probability of uncovered rows. No learned rule tests for a missing value.", "quantifier": "every fitted or initialised classifier, every prediction table, every row and pattern of missing values", "why_tests_cant": "ranges over all models, tables and patterns of missing values, including discretised columns", "anchors": ["wittgenstein/base.py:Cond.covers", "wittgenstein/base.py:Ruleset.predict", "wittgenstein/discretize.py:BinTransformer.transform", "wittgenstein/abstract_ruleset_classifier.py:predict_proba"]}
{"id": "C83", "title": "training on from an initial model keeps its positive predictions", "statement": "A classifier fitted with initial_model predicts positive every row the initial model predicts positive.", "quantifier": "every successful fit with an initial model (ruleset, text or classifier), every later prediction table", "why_tests_cant": "ranges over initial models, new training data and prediction data", "anchors": ["wittgenstein/irep.py:IREP.fit", "wittgenstein/ripper.py:RIPPER.fit", "wittgenstein/abstract_ruleset_classifier.py:_ruleset_frommodel", "wittgenstein/discretize.py:BinTransformer.fit"]}
{"id": "C84", "title": "the feature lists of a fitted classifier", "statement": "After fit, trainset_features_ lists the training columns other than the class, in order; selected_features_ lists some of them, each once, and every feature a rule of the model tests; it lists nothing else unless max_total_conds trimmed the model.", "quantifier": "every successful fit without an initial model, all data, hyperparameters, engines, random choices", "why_tests_cant": "ranges over all training tables and learned models", "anchors": ["wittgenstein/irep.py:IREP.fit", "wittgenstein/ripper.py:RIPPER.fit", "wittgenstein/base.py:Ruleset.get_selected_features"]}
{"id": "C85", "title": "interpret_model explains the black box", "statement": "interpret_model(X, model, interpreter) returns the ruleset of the interpreter fitted to the black box's answers on X; the interpreter then predicts on X, says yes exactly where some returned rule holds, every returned rule is a reason for at least one row to which the black box itself gave the positive answer, and the positive answer is 1/True for 0/1 or False/True answers. It returns whenever the answers are binary or constant, and passes on the black box's exception with the interpreter unchanged. An unpruned, unlimited IREP interpreter agrees with the black box on every row (fidelity 1) whenever rows with different answers differ in some binned feature.", "quantifier": "every table, black box (any function from data to an array or list of answers, or an exception), interpreter, seed and hash order", "why_tests_cant": "arbitrary black boxes and data", "anchors": ["wittgenstein/interpret.py:interpret_model", "wittgenstein/interpret.py:model_predict", "wittgenstein/utils.py:try_np_tonum", "wittgenstein/interpret.py:score_fidelity"]}
{"id": "C86", "title": "rule_stats examples are rows the rule covers", "statement": "rule_stats(X, y, n_examples=-1) returns, with each rule's unchanged statistics, a table with exactly the rows of X on which that rule holds, in order, as the rule sees them (numbers shown as their bins) and with y's labels in the class column when y is passed (no class column otherwise); n_examples=k>0 returns min(k, number of such rows) of those rows, none twice; any other n_examples raises ValueError (unless there are no rules).", "quantifier": "every fitted model, table, labels, n_examples and sampling outcome", "why_tests_cant": "all data and all random samples", "anchors": ["wittgenstein/abstract_ruleset_classifier.py:AbstractRulesetClassifier.rule_stats"]}
{"id": "C87", "title": "every condition of a learned rule matters", "statement": "In every rule of a classifier fitted without an initial model (and every rule IREP adds to one), each condition turns away at least one negative training example that the conditions before it let through (on the table as the fitted discretiser sees it). So no condition is redundant, no rule has more conditions than there are negative examples, and no rule tests a feature that is constant over the training data.", "quantifier": "every training table, hyperparameters with 0<=prune_size<=1, random splits, algorithm, cn_optimize setting", "why_tests_cant": "all data sets, splits and optimisation histories", "anchors": ["wittgenstein/base_functions.py:grow_rule", "wittgenstein/base_functions.py:best_successor", "wittgenstein/base_functions.py:grow_rule_cn", "wittgenstein/ripper.py:RIPPER._optimize_ruleset", "wittgenstein/irep.py:IREP._grow_ruleset"]}
{"id": "C88", "title": "every rule IREP adds matters", "statement": "Every rule IREP adds covers a positive training example that none of the rules it added before covers; a classifier fitted by IREP without an initial model keeps this after duplicate removal and trimming, and has at most as many rules as there are positive training examples.", "quantifier": "every training table, hyperparameters with 0<=prune_size<=1, random splits, initial model (for the first part)", "why_tests_cant": "all data sets and splits", "anchors": ["wittgenstein/irep.py:IREP._grow_ruleset", "wittgenstein/base_functions.py:rm_covered"]}
{"id": "C89", "title": "A classifier that was never given rules refuses every call and stays as it was", "statement": "On a classifier that was only constructed, in every sequence of predict, predict_proba, score, rule_stats, recalibrate_proba, rule edits, set_params and init_ruleset calls in which no init_ruleset succeeds, every call except set_params raises: AttributeError, or for init_ruleset the error of its argument. Nothing is stored on the way: afterwards the classifier equals one constructed with the same hyperparameters as set so far.", "quantifier": "every class, every constructor arguments, every finite history of calls, all data", "why_tests_cant": "a test tries single calls on a fresh object; the claim is about every interleaving, and about nothing being left behind by a refused call", "anchors": ["wittgenstein/abstract_ruleset_classifier.py: predict, predict_proba, score, rule_stats, recalibrate_proba, init_ruleset, add_rule, set_params", "wittgenstein/check.py: _check_is_model_fit"]}
{"id": "C90", "title": "Hand-made classifiers: what works before and after the first prediction", "statement": "A classifier that got its rules from init_ruleset and was never fitted refuses predict_proba and recalibrate_proba (default discretize=True) with AttributeError, whatever the data and without changing anything, exactly until predict, score or rule_stats has been called once after the rules were given (even if that call raised). From then on discretize makes no difference, predict answers exactly by the rules on every table with the features, and predict_proba gives probabilities as soon as all rules are calibrated.", "quantifier": "every finite history of calls on a constructed classifier, with any edits and repeated init_ruleset calls; all data", "why_tests_cant": "the hidden state (is there a bin transformer yet?) depends on the whole history of calls, so no finite set of scripts covers it", "anchors": ["wittgenstein/abstract_ruleset_classifier.py: init_ruleset, predict, predict_proba, recalibrate_proba, rule_stats, score, _ensure_has_bin_transformer", "wittgenstein/preprocess.py: _upgrade_bin_transformer_ifdepr"]}
{"id": "C91", "title": "IREP.fit carries out the published IREP algorithm", "statement": "The rules of a classifier fitted with IREP are, up to their statistics, those of the initial model followed by the rules of a run of the published algorithm on the discretised training table, without repetitions and trimmed to max_total_conds. A run: while a positive example is uncovered and no limit on the rule set is reached, split the uncovered examples at random; grow a rule by appending, as long as it covers a negative grow example and no rule limit is reached, the candidate condition of greatest FOIL gain if that gain is positive; prune it to the shortest prefix of greatest (p+(N-n))/(P+N) on the prune examples; stop if it covers no positive or more negatives than positives there, else add it and remove what it covers. Candidates: with cn_optimize every feature=value of the table, otherwise the initial model's and those that occur in both classes.", "quantifier": "every training input, class, initial model, hyperparameters, both engines, every shuffle order", "why_tests_cant": "a test compares single runs; that every run follows the algorithm, whatever the shuffles, is a refinement statement about the loop", "anchors": ["wittgenstein/irep.py: fit, _grow_ruleset, _grow_ruleset_cn", "wittgenstein/base_functions.py: grow_rule, grow_rule_cn, prune_rule, prune_rule_cn, stop_early", "wittgenstein/base.py: _update_possible_conds, trim_conds"]}
{"id": "C92", "title": "RIPPER.fit carries out the RIPPER algorithm", "statement": "On data with positives and negatives, with prune_size > 0, dl_allowance >= 0 and the default engine, the rules of a classifier fitted with RIPPER are, up to their statistics, those of a run of the algorithm on the discretised training table, without repetitions and trimmed to max_total_conds. A run: (1) build: add rules, each grown on a random part of the uncovered examples by greatest FOIL gain and pruned on the rest to the shortest prefix of greatest (p-n+1)/(p+n+1), until every positive is covered by the added rules, the description is more than dl_allowance bits longer than the shortest since the first addition, a limit is reached or nothing can be grown; (2) k optimisation passes (fewer if a pass that is not the last changes nothing): for each rule, a replacement grown from nothing and a revision grown from the rule, both pruned by accuracy; the one with the least description length is put in its place, unless already among the rules; (3) build again from these rules on all examples; (4) keep the first rule and each later one exactly if the rules up to it are described in no more bits than those before it.", "quantifier": "every training input, class, initial model, hyperparameters (prune_size in (0,1], dl_allowance >= 0), every shuffle order", "why_tests_cant": "a test compares single runs; that every run follows the algorithm, whatever the shuffles, is a refinement statement about four nested loops and incremental bookkeeping of description lengths", "anchors": ["wittgenstein/ripper.py: fit, _grow_ruleset_cn, _optimize_ruleset_cn, _cover_remaining_positives_cn, _rs_total_bits_cn, _rs_theory_bits, _exceptions_bits_cn", "wittgenstein/base_functions.py: grow_rule_cn, prune_rule_cn, stop_early"]}
{"id": "C93", "title": "The caller's data are never modified", "statement": "fit, predict, predict_proba, score, recalibrate_proba and rule_stats never change a table, array, Series or list that exists when they are called - the one passed to them or any other - whether they return or raise. Through any history of such calls on the same objects, every call answers as it would on the original values, and the example tables that rule_stats returns are new objects.", "quantifier": "every store of objects, every classifier, every history of calls with any arguments, returning or raising", "why_tests_cant": "a test compares a table before and after a few calls; absence of aliasing must hold for each path through the preprocessing (DataFrame or rows, class column present or not, names given or not, labels as Series or list, raising at each point)", "anchors": ["wittgenstein/preprocess.py:_convert_to_training_df", "wittgenstein/preprocess.py:_convert_to_prediction_df", "wittgenstein/discretize.py:BinTransformer.transform", "wittgenstein/abstract_ruleset_classifier.py:rule_stats"]}
{"id": "C94", "title": "min_ruleset_samples stops the growth of the rule set", "statement": "With min_ruleset_samples=m: if there are fewer than m training examples (or max_rules or max_total_conds is not positive), fit of IREP and of RIPPER, with cn_optimize on or off, succeeds and learns no rule at all. In a model IREP has fitted, before each rule there were at least m training examples that none of the preceding rules covers (negative examples count even if covered when prune_size is 0, because IREP then never removes them).", "quantifier": "every well-formed training set with distinct index labels, every setting of the hyperparameters with 0 <= prune_size <= 1 and alpha > 0, every outcome of the random choices", "why_tests_cant": "the limit acts on the number of examples that remain in the middle of training, which depends on data, shuffles and pruning; a test observes a few final models", "anchors": ["wittgenstein/base_functions.py:stop_early", "wittgenstein/irep.py:IREP._grow_ruleset", "wittgenstein/irep.py:IREP._grow_ruleset_cn", "wittgenstein/ripper.py:RIPPER._grow_ruleset_cn"]}
{"id": "C95", "title": "every rule RIPPER keeps matters (default engine)", "statement": "After RIPPER.fit without an initial model and with the default engine (cn_optimize=True), every rule of the model covers at least one training example that no rule before it covers, so no rule could be deleted from the end of the list without changing what the model says about the training data, and there are never more rules than training examples. With cn_optimize=False this is not so: RIPPER can return a rule followed by a specialisation of it ([a=x] V [a=x^c=z]).", "quantifier": "every well-formed training set with distinct index labels, every setting of the hyperparameters with 0 <= prune_size <= 1, every outcome of the random choices", "why_tests_cant": "redundant rules come out of particular interactions of regrowing, optimisation and the description-length comparison; a test sees the models of a few data sets", "anchors": ["wittgenstein/ripper.py:RIPPER.fit", "wittgenstein/ripper.py:_rs_total_bits_cn", "wittgenstein/ripper.py:_rs_total_bits", "wittgenstein/ripper.py:_exceptions_bits"]}
{"id": "C96", "title": "fit sees the training data only up to names", "statement": "Give the columns of a training set, the values within each non-numeric column, the row labels and the classes other names, one to one (numeric columns keep their numbers because their order and printed form matter to binning). If chance treats corresponding rows alike, fit on the renamed data succeeds when fit on the original did, and the two models are the same but for those names: the same number of rules in the same order, the conditions of each in the same order, testing the corresponding feature for the corresponding value or the same bin, the same class counts and probabilities, the same bins, the corresponding selected features, the same classes_. On their own training data the two models predict the same and give corresponding reasons. With cn_optimize=False this is claimed when all values are kept, because there the candidates come out of a Python set.", "quantifier": "all pairs of well-formed training inputs (any forms of X, y, class_feat, feature_names) that are renamings of each other, IREP and RIPPER, all hyperparameters with 0 <= prune_size <= 1 and n_discretize_bins None or >= 0, both settings of cn_optimize, all worlds; column names whose texts are distinct and contain no '='", "why_tests_cant": "a dependence on a name (an ordering by text, a hash, a label used as a position) only shows for particular names; a test tries a few", "anchors": ["wittgenstein/irep.py:IREP.fit", "wittgenstein/ripper.py:RIPPER.fit", "wittgenstein/base_functions.py", "wittgenstein/catnap.py:CatNap", "wittgenstein/preprocessing.py:fit_transform"]}
{"id": "C97", "title": "training on examples of one class only", "statement": "If no training label equals pos_class, fit succeeds (IREP or RIPPER, either engine), the model has no rules and predicts False for every example of every later data set. If every label equals pos_class and no limit (max_rules, max_total_conds, min_ruleset_samples) forbids the first rule, IREP's model is the single rule without conditions and predicts True for everything. RIPPER, on the same all-positive data, returns a model without rules that predicts False for everything, its own training examples included.", "quantifier": "all well-formed training inputs with distinct index labels whose labels are all different from, or all equal to, pos_class; all hyperparameters with 0 <= prune_size <= 1 and alpha > 0; all outcomes of the random choices; all well-formed data passed to predict", "why_tests_cant": "the claim is about every data set of one class, every setting and every later input", "anchors": ["wittgenstein/irep.py:IREP._grow_ruleset_cn", "wittgenstein/irep.py:IREP._grow_ruleset", "wittgenstein/ripper.py:RIPPER._grow_ruleset_cn", "wittgenstein/ripper.py:RIPPER._grow_ruleset", "wittgenstein/base.py:Ruleset.predict"]}
{"id": "C98", "title": "limits on the rule set only cut IREP's list of rules short", "statement": "Train IREP twice on the same data with the same random choices and settings that differ only in max_rules, max_total_conds and min_ruleset_samples, the second time admitting at least as much. The first model's rules, with their class counts and probabilities, are the first rules of the second model, with the same bins, classes and features; so every example the first model predicts True the second one does too. With max_rules=m against no max_rules, no initial model and a table whose feature=value pairs print differently, the first model is exactly the first m rules of the second. (RIPPER does not have this property: there a limit can change the first rule.)", "quantifier": "all training inputs, class names, initial models, both engines, all hyperparameters, all outcomes of the random choices; for the exact count also 0 <= prune_size <= 1 and distinct index labels; all data passed to predict", "why_tests_cant": "relates two runs for every data set and every pair of settings", "anchors": ["wittgenstein/irep.py:IREP._grow_ruleset_cn", "wittgenstein/irep.py:IREP._grow_ruleset", "wittgenstein/irep.py:IREP.fit", "wittgenstein/base_functions.py:stop_early", "wittgenstein/base.py:Ruleset.trim_conds", "wittgenstein/utils.py:remove_duplicates"]}
{"id": "C99", "title": "a column that says nothing new does not change IREP's model", "statement": "Take training data and the same data with one more feature column that is a copy of a column to its left, or each of whose values is the value of all rows or marks exactly the rows that some value of a column to its left marks. IREP with the same settings, the same random choices and cn_optimize=True succeeds on the second if it does on the first, with the same rules and the same class counts and probabilities, selected features, class names and bins of the other features; and the two models predict alike on all data. (RIPPER does not have this property: a constant column can make it drop a rule. And a copy placed left of the original is mentioned in its stead.)", "quantifier": "all training inputs and class names, all positions of the added column, initial models, hyperparameters with 0 <= prune_size <= 1 and n_discretize_bins None or >= 0, all outcomes of the random choices, distinct index labels; all data passed to predict with the selected features", "why_tests_cant": "relates two runs on different tables for every table and every added column", "anchors": ["wittgenstein/irep.py:IREP.fit", "wittgenstein/irep.py:IREP._grow_ruleset_cn", "wittgenstein/base_functions.py:best_successor", "wittgenstein/base_functions.py:grow_rule_cn", "wittgenstein/catnap.py:CatNap", "wittgenstein/discretize.py:BinTransformer.fit"]}
{"id": "C100", "title": "the order of the training rows matters only through the first appearance of the values", "statement": "Take training data and the same examples in another order (other row labels, another form of call, another random state allowed) such that in every feature the values make their first appearance in the same order and each feature either needs no bins or is cut into bins at the same places in both orders. IREP and RIPPER with the same settings, prune_size=0, a given pos_class and cn_optimize=True succeed on the second if they do on the first, with the same rules and the same class counts and probabilities, the same statistics of the uncovered examples and the same selected features; and the two models give the same predictions, reasons and probabilities, or raise the same exception, on all data. With any prune_size the same holds if the row labels move with the rows and the random splits depend only on which examples are split. (Without the condition on first appearance it fails: ties go to the condition seen first.)", "quantifier": "all training inputs, class names and permutations of the rows that keep the order of first appearance, both algorithms, all initial models and hyperparameters, all outcomes of the random choices, distinct index labels; all data passed to predict", "why_tests_cant": "relates two runs on every table and every reordering of its rows", "anchors": ["wittgenstein/irep.py:IREP.fit", "wittgenstein/irep.py:IREP._grow_ruleset_cn", "wittgenstein/ripper.py:RIPPER.fit", "wittgenstein/ripper.py:RIPPER._grow_ruleset_cn", "wittgenstein/ripper.py:RIPPER._optimize_ruleset_cn", "wittgenstein/ripper.py:RIPPER._cover_remaining_positives_cn", "wittgenstein/catnap.py:CatNap", "wittgenstein/base_functions.py:random_split", "wittgenstein/base_functions.py:recalibrate_proba"]}
{"id": "C101", "title": "RIPPER with cn_optimize=False carries out the algorithm, counting examples once per rule", "statement": "Whenever RIPPER.fit with cn_optimize=False, prune_size > 0 and dl_allowance >= 0 succeeds, the rules it ends with are those of a run of this algorithm on the training table as the fitted discretiser sees it: conditions are those of the initial model and every feature=value that occurs both in a positive and in a negative example; rules are grown greedily by FOIL gain on a random part of what the added rules leave uncovered, pruned to the shortest prefix of greatest (p-n+1)/(p+n+1), and added until no positive is left, a limit is reached, nothing can be grown or the description is more than dl_allowance bits longer than the shortest met; k passes replace each rule by the cheapest of itself, a new rule and a revision, the alternatives pruned and priced together with the other rules; then rules are added in the same way from the examples left uncovered; in the end each rule is kept that does not lengthen the description of the rules up to it; repeated rules go and max_total_conds is enforced. Coverage in description lengths and accuracies is counted once for every covering rule; where no example is covered by two rules the counts and the bits are the standard ones.", "quantifier": "all training inputs, class names, positive classes, initial models and hyperparameters with prune_size in (0,1] and dl_allowance >= 0, all outcomes of the random choices, distinct index labels", "why_tests_cant": "says of every training, on any table and for any random choices, that each step is the one the algorithm prescribes", "anchors": ["wittgenstein/ripper.py:RIPPER.fit", "wittgenstein/ripper.py:RIPPER._grow_ruleset", "wittgenstein/ripper.py:RIPPER._optimize_ruleset", "wittgenstein/ripper.py:RIPPER._cover_remaining_positives", "wittgenstein/ripper.py:_exceptions_bits", "wittgenstein/base.py:Ruleset.covers"]}
{"id": "C102", "title": "numeric columns are cut at the quantiles of the training values", "statement": "After fit with n_discretize_bins=n (at least 2), a numeric feature with m > n training values, all different, has exactly n bins without gaps, and the limit between the i-th bin and the next is the i-th n-quantile of the training values (linear interpolation), up to half a hundredth; so every bin holds (m-1)/n training values, rounded down, or one more. If values are repeated (but more than n differ and none is missing), every limit is still an inner n-quantile up to half a hundredth, unless no inner quantile lies strictly between the least and the greatest value: then the limits are points that cut the range in n equal parts.", "quantifier": "all training tables, ways of passing labels, learners, hyperparameters with n_discretize_bins >= 2 and numeric columns of different values", "why_tests_cant": "a statement about where limits fall for every column of numbers and every number of bins", "anchors": ["wittgenstein/discretize.py:BinTransformer._pandas_cut", "wittgenstein/discretize.py:BinTransformer.fit", "wittgenstein/irep.py:IREP.fit", "wittgenstein/ripper.py:RIPPER.fit"]}
{"id": "C103", "title": "once an optimisation pass changes nothing, more passes change nothing", "statement": "If RIPPER.fit with k=K announces that it halts its optimisation at iteration j because no changes were made, then fit with any k >= j, smaller or larger than K, on the same data and under the same randomness, ends in the same way (normally or with the same exception) and leaves the same classifier except for the stored k. The announced j satisfies 1 <= j < K, and the announcement is made, for the same j, exactly with the values of k above j.", "quantifier": "all training tables and ways of passing labels, initial models, hyperparameters, values of cn_optimize, K and k, and all shuffles", "why_tests_cant": "a statement about two runs with arbitrarily many passes over arbitrary data, which hinges on the set-like equality of rulesets that decides whether to halt", "anchors": ["wittgenstein/ripper.py:RIPPER.fit", "wittgenstein/ripper.py:RIPPER._optimize_ruleset", "wittgenstein/ripper.py:RIPPER._optimize_ruleset_cn", "wittgenstein/base.py:Ruleset.__eq__"]}
{"id": "C104", "title": "a discretised feature counts only through the bin of its value", "statement": "Two examples, of the same or of different prediction tables, that have for every feature the rules mention the same value, or (for a feature discretised by fit) numbers in the same bin, get the same prediction, the same reasons and the same probabilities. After fit, all numbers from some number on, and all numbers up to some number, share a bin of the feature, so arbitrarily large or small values are treated like the others of the end bins.", "quantifier": "all fitted or initialised classifiers with their bins, all prediction tables with distinct row labels that have the needed features, all pairs of examples; for the end bins all training tables, learners and hyperparameters", "why_tests_cant": "ranges over all real-valued inputs and all bins fit can produce; a test samples a few numbers", "anchors": ["wittgenstein/discretize.py:BinTransformer.transform", "wittgenstein/discretize.py:BinTransformer.fit", "wittgenstein/abstract_ruleset_classifier.py:AbstractRulesetClassifier.predict", "wittgenstein/abstract_ruleset_classifier.py:AbstractRulesetClassifier.predict_proba"]}
{"id": "C105", "title": "without pruning the random state is irrelevant", "statement": "With prune_size=None or 0 and the default cn_optimize, fit on training data with distinct row labels gives the same rules with the same statistics, the same class, positive class, bins and feature lists, and hence the same predictions, reasons and probabilities, whatever random_state is (or without any), and whatever the iteration order of sets.", "quantifier": "all training tables with distinct row labels, both learners, initial models, hyperparameters with pruning off, and all pairs of random states, set orders and ways of rounding int(n*size)", "why_tests_cant": "two random states tried in a test may agree by luck; the claim is about all shuffles", "anchors": ["wittgenstein/irep.py:IREP.fit", "wittgenstein/ripper.py:RIPPER.fit", "wittgenstein/base_functions.py:random_split", "wittgenstein/base_functions.py:df_shuffled_split"]}
{"id": "C106", "title": "the warnings of fit and predict are accurate", "statement": "A successful fit warns \"No positive samples\" exactly when no training label is the positive class and \"No negative samples\" exactly when every one is; with the positive class inferred it warns of a single label exactly when there is only one, and names the class that is really missing; it warns about parameters exactly when some of those passed are the classifier's own, and names just those; unless max_total_conds is set, it warns \"Ruleset is universal\" exactly when the fitted model has a rule without conditions and \"Ruleset is empty\" exactly when it has no rules. A successful predict gives the latter two warnings under the same conditions, and they are true: all its predictions are then positive, or negative. A model that was never fitted also warns, at its first prediction only, about conditions that do not look like ranges.", "quantifier": "all classifiers, training tables, initial models, parameters and prediction data of calls that succeed", "why_tests_cant": "tests rarely look at warnings, and never at the absence of a needed one over all data", "anchors": ["wittgenstein/check.py:_check_df_allpos_allneg", "wittgenstein/check.py:_warn_only_single_class", "wittgenstein/base.py:Ruleset._check_allpos_allneg", "wittgenstein/abstract_ruleset_classifier.py:_set_deprecated_fit_params", "wittgenstein/discretize.py:BinTransformer.find_floor_ceil"]}
{"id": "C107", "title": "after a recalibration the past of the model does not matter", "statement": "Two classifiers with the same rules, class column, positive class, alpha and bins, whatever statistics they hold and however they came about (fitting, editing, typing in, earlier recalibrations): recalibrate_proba on the same data has the same outcome for both, and if it succeeds both hold the same statistics and, with the same feature lists, give the same probabilities and reasons on all data. In particular no history of predictions, scores, rule statistics and earlier recalibrations - failed ones included - influences what a successful recalibration leaves; recalibrating twice on the same data is recalibrating once.", "quantifier": "all pairs of classifiers, calibration and prediction data, histories of calls", "why_tests_cant": "a test compares two histories at most; the claim is about all of them", "anchors": ["wittgenstein/abstract_ruleset_classifier.py:recalibrate_proba", "wittgenstein/base_functions.py:recalibrate_proba", "wittgenstein/abstract_ruleset_classifier.py:predict_proba"]}
{"id": "C108", "title": "unusable data are refused by every call", "statement": "fit raises, for both classifiers and whatever the parameters: ValueError for a table without rows or when neither y nor class_feat is given, IndexError when class_feat is not among the columns (the names passed, the DataFrame's, or 0, 1, ...) and no y is given, NameError when y is a Series of another name than class_feat (or without one); class column, positive class, bins and features stay as they were. recalibrate_proba raises the same exceptions and changes nothing. A fitted classifier raises ValueError for a table without rows in predict (with or without reasons), predict_proba, score, rule_stats and recalibrate_proba, and is unchanged.", "quantifier": "all classifiers, data, labels, feature names, parameters; initial models that can be read", "why_tests_cant": "the combinations of calls, data forms and parameters are too many to try, and the claim is that none lets bad data through", "anchors": ["wittgenstein/preprocess.py:_check_valid_input_data", "wittgenstein/preprocess.py:preprocess_training_data", "wittgenstein/preprocess.py:preprocess_prediction_data", "wittgenstein/preprocess.py:_preprocess_recalibrate_proba_data"]}
{"id": "C109", "title": "whether a hand-made model's first prediction fails is decided by its condition values alone", "statement": "A new classifier is given a model with init_ruleset (text, rules, or another classifier). On any data that has the features of the model, its first predict raises if and only if some condition value of the model is not text, or has two or more dashes beyond its first character without being of the form 'a - b', or is of the form 'a - b' with an a that float() rejects. The exception is AttributeError or UnboundLocalError for a value of the first two kinds, whatever else the model contains, and ValueError when there are only values of the third kind. When it does not raise, it predicts every example exactly as the rules say. Either way the rules are unchanged.", "quantifier": "every new classifier, every model, every table having the model's features", "why_tests_cant": "it depends on every character of every condition value, and the claim is an equivalence over all models and data", "anchors": ["wittgenstein/abstract_ruleset_classifier.py:AbstractRulesetClassifier._ensure_has_bin_transformer", "wittgenstein/discretize.py:BinTransformer.find_floor_ceil", "wittgenstein/discretize.py:BinTransformer._bin_prediscretized_features"]}
{"id": "C110", "title": "giving a model to another classifier carries its rules but not its bins", "statement": "Giving a classifier its own rules back with init_ruleset, as rules, as the classifier, or as its printed text when that parses back, changes no prediction. A fitted model given in any of these forms to a new classifier predicts, once that classifier has been asked for a prediction, True exactly on the examples where some rule holds whose conditions on discretised features meet values that already are labels of bins. So it never predicts True where the fitted classifier does not, agrees with it on tables that are discretised already and when the rules use no discretised feature, and on raw numbers loses every rule with a condition on a discretised feature.", "quantifier": "every fitted classifier, learner, parameters, training data, form of the model, prediction table", "why_tests_cant": "a statement about every model and every table; the loss of bins goes unnoticed, nothing is raised", "anchors": ["wittgenstein/abstract_ruleset_classifier.py:AbstractRulesetClassifier.init_ruleset", "wittgenstein/abstract_ruleset_classifier.py:AbstractRulesetClassifier._ensure_has_bin_transformer", "wittgenstein/abstract_ruleset_classifier.py:AbstractRulesetClassifier._ruleset_frommodel"]}
{"id": "C111", "title": "what adding or removing a rule does to accuracy, precision, recall and F1", "statement": "Take a classifier, a table of n examples it can predict and labels for them, P of which are the positive class. After a successful add_rule, insert_rule or insert_rule_at, let g (b) be the number of examples with (without) the positive label that the new rule covers and no old rule does. Then score with accuracy changes by exactly (g-b)/n, with recall by exactly g/P (so recall never falls; it is None before and after if P=0), and precision rises, stays or falls exactly as g is more than, equal to or less than the old precision times g+b (from None to g/(g+b), and unchanged if g+b=0). F1 rises or falls exactly as 2g is more or less than the old F1 times g+b; from None it stays None if g=0 and becomes positive otherwise. After remove_rule or remove_rule_at the reverse holds, for the examples only the removed rule covered.", "quantifier": "all classifiers with rules, all rules, positions, tables and labels", "why_tests_cant": "an exact law over all models, rules and data", "anchors": ["wittgenstein/abstract_ruleset_classifier.py:AbstractRulesetClassifier.score", "wittgenstein/abstract_ruleset_classifier.py:AbstractRulesetClassifier.add_rule", "wittgenstein/abstract_ruleset_classifier.py:AbstractRulesetClassifier.remove_rule_at", "wittgenstein/base_functions.py:score_recall"]}
{"id": "C112", "title": "discretising the training data first changes nothing", "statement": "After a successful fit, take the training table with the labels as a column, discretise it with bin_transformer_.transform, and fit a classifier of the same class and parameters on the result: it succeeds, discretises nothing, and has the same rules with the same statistics, the same positive class and feature lists. On prediction data discretised in the same way it predicts what the first classifier predicts on the data as they are.", "quantifier": "both learners, all training data, parameters, initial models, prediction tables", "why_tests_cant": "a column that has been cut must never be cut again, whatever its values and bins, and training must depend on the discretised table alone", "anchors": ["wittgenstein/discretize.py:BinTransformer.find_continuous_feats", "wittgenstein/discretize.py:BinTransformer.transform", "wittgenstein/preprocess.py:preprocess_training_data", "wittgenstein/irep.py:IREP.fit", "wittgenstein/ripper.py:RIPPER.fit"]}
{"id": "C113", "title": "hyperparameters set after training change no answer", "statement": "set_params on a classifier changes no prediction, reason, probability, score, rule statistic or printed model. In any history of predictions, scores, statistics, recalibrations, edits, init_ruleset and set_params calls that set no alpha, every other call ends as it would have without the set_params calls, and all answers afterwards - also after one more recalibration on any data - are the same. If alpha is set too, the rules, predictions, scores and rule statistics are still those of the history without set_params (only the probabilities of later recalibrations differ).", "quantifier": "all classifiers (fitted, hand-made or untrained), all hyperparameters and values of their types, all histories of calls, all data", "why_tests_cant": "A test sets one parameter and compares one prediction. That no parameter is read by any later call, in any order with edits and recalibrations, is a statement about all histories.", "anchors": ["wittgenstein/abstract_ruleset_classifier.py: set_params, predict, predict_proba, score, rule_stats, recalibrate_proba", "wittgenstein/ripper.py: RIPPER.set_params, score"]}
{"id": "C114", "title": "the statistics of the rules bound the score of the model", "statement": "On any usable data with labels, predict gives True at least as often as each rule covers (rule_stats) and at most as often as all rules cover together; score with recall is at least each rule's recall and at most their sum; both upper bounds are equalities when no row is covered by two rules. For a model of one rule the line of rule_stats is the number of True predictions and the precision, recall and F1 that score reports for the model.", "quantifier": "all fitted or edited or hand-made classifiers ready to predict, all usable data and labels", "why_tests_cant": "A test compares two calls on one dataset. That two independently computed reports never contradict each other is a statement about all models and data.", "anchors": ["wittgenstein/abstract_ruleset_classifier.py: rule_stats, score, predict", "wittgenstein/base_functions.py: score_precision, score_recall, score_f1"]}
{"id": "C115", "title": "A fitted model is no larger than its training data", "statement": "In a classifier fitted without an initial model, no rule has more conditions than the training table has features (nor than there are selected features), and with IREP, or with RIPPER and its default engine, there are no more rules than training examples. So the number of conditions in the whole model is at most the number of examples times the number of features. With any engine and any initial model, IREP adds at most as many rules to the initial ones as there are positive labels, and RIPPER at most twice as many.", "quantifier": "all worlds (shuffles), training inputs in any accepted form, hyperparameters and engines", "why_tests_cant": "the bound is about every data set and every run of the learners; a test can only count the rules of the models it trains", "anchors": ["wittgenstein/irep.py:IREP.fit", "wittgenstein/ripper.py:RIPPER.fit", "wittgenstein/base_functions.py:grow_rule", "wittgenstein/base.py:Ruleset.count_rules, Ruleset.count_conds"]}
{"id": "C116", "title": "No predicted probability is more extreme than the calibration data allow", "statement": "After fit on N examples, or after recalibrate_proba on N labelled examples, every probability predict_proba returns, for either class and on any usable data, lies between alpha/(N+2 alpha) and (N+alpha)/(N+2 alpha), alpha being the positive smoothing hyperparameter.", "quantifier": "all worlds, training inputs, engines, initial models, hyperparameters with alpha > 0, calibration data and prediction data", "why_tests_cant": "a bound on every probability the model could ever return on any data set; a test evaluates a few", "anchors": ["wittgenstein/base.py:Ruleset.predict_proba, Ruleset._uncovered_class_freqs", "wittgenstein/base_functions.py, utils.py: smoothed class frequencies, weighted_avg_freqs", "wittgenstein/abstract_ruleset_classifier.py:recalibrate_proba"]}
