# A Rocq (Coq 8.16) model of imoscovitz/wittgenstein

Source modelled: `/repo/wittgenstein/*.py` at the pinned commit (read as text, never run).
Properties: `properties.jsonl` (C01..). Status of each: `MANIFEST.json`.
Wrong-program experiments: `seeded/LOG.jsonl`.

## 1. Layout (`rocq/theories`)

| file | models | repo source |
|---|---|---|
| `Py.v` | exceptions as values, Python scalars (`str`, `int`, `bool`, decimal `float`, `nan`), `==`, `str()`, slices, string methods, `float(str)` | Python / pandas scalar semantics |
| `Frame.v` | DataFrame = column names + labelled rows; boolean-mask selection, `loc`, `drop`, `unique` | pandas operations used by the code |
| `Rules.v` | Cond / Rule / Ruleset: covers, predict, give_reasons, eq, hash, editing, trim | `base.py`, `check.py`, `utils.py` |
| `Text.v` | `str()` of conds / rules / rulesets and the parsers | `base.py` |
| `Metrics.v` | splits, pos/neg, nCr, argmin, i_replaced, score functions, gain, accuracy | `base_functions.py` |
| `Catnap.v` | the CatNap index | `catnap.py` |
| `Learn.v` | grow / prune, both engines | `base_functions.py` |
| `Irep.v`, `Ripper.v` | the two learners, both engines; MDL arithmetic | `irep.py`, `ripper.py` |
| `Proba.v` | recalibrate_proba, predict_proba | `base_functions.py`, `base.py`, `utils.py` |
| `Discretize.v` | BinTransformer transform, labels, parsing | `discretize.py` |
| `Cut.v` | `_pandas_cut` (with pandas' `qcut`, `cut`), `_numpy_cut` | `discretize.py:109-163` |
| `Preprocess.v` | training / prediction preprocessing | `preprocess.py` |
| `Classifier.v` | the classifier object and its API as a state machine | `abstract_ruleset_classifier.py`, `irep.py`, `ripper.py`, `interpret.py` |
| `Verbose.v` | the learners with everything they print that can raise (`rnd`) | `utils.py`, all of the above |
| `Passes.v` | the early stop of the optimisation passes and the iteration it names | `ripper.py` |
| `Warn.v` | the warnings of fit and predict: kind and what is named | `check.py`, `base.py`, `preprocess.py`, `abstract_ruleset_classifier.py`, `discretize.py` |
| `Heap.v` | objects shared between several models, programs over them | `base.py`, `abstract_ruleset_classifier.py`, `irep.py:153` |
| `Store.v` | the caller's tables, arrays, Series and lists as mutable objects; preprocessing and the API on references | `preprocess.py`, `discretize.py`, `abstract_ruleset_classifier.py` |
| `Spec.v`, `LearnSpec.v`, `RipperSpec.v`, `TextSpec.v`, `ProbaSpec.v`, `ClfSpec.v`, `SessionSpec.v`, `FiresSpec.v`, `CalSpec.v`, `HeapSpec.v`, `BinSpec.v`, `CallSpec.v`, `RelabelSpec.v`, `TrainSpec.v`, `MdlSpec.v`, `ExamplesSpec.v`, `UsefulSpec.v`, `AlgoSpec.v`, `RipperAlgoSpec.v`, `StoreSpec.v`, `RealSpec.v`, `PrepSpec.v` | the small independent specification the theorems are stated with | (English properties) |
| `*Facts.v`, `Engine.v`, `Hom.v`, `FitRun.v`, `IrepTrain.v`, `RipperTrain.v`, `RipperStages.v`, `Fires.v`, `HeapStep.v`, `ReproFacts.v`, `RealFacts.v`, `Useful.v`, `Algo.v`, `RipperAlgo.v`, `StoreFacts.v`, `TrainView.v`, ... | lemmas | |
| `Prop_*.v` | the property theorems (named `Cnn_...`) with their last lemmas, non-vacuity examples and `Print Assumptions` | |

Every definition of the model carries a comment `(* file.py:lines *)`; simplifications are said there.

## 2. Modelling decisions (also the limits of the model)

* **Exceptions are values**: `res A := Ok a | Err e`. Theorems about totality say `exists r, ... = Ok r`.
* **Data**: a DataFrame is a list of column names and a list of rows `(label, cells)`; labels are `nat`
  (only equality of labels is ever used by the code); repeated labels are representable. Repeated *column* names are
  outside the model (hypothesis `NoDup` on columns where it matters). dtype effects other than "numeric / text column"
  are outside the model.
* **Scalars**: text, int, bool, decimal floats `m*10^-k`, nan. Python `==` (1 == True == 1.0, nan != nan).
  `None` cells are merged with nan.
* **Floating point**: information gain and description lengths are *exact* in the model, kept in the log domain as
  rationals (`g` stands for `log2 g`, `q` for `1/2 log2 q`); `RealSpec.v` / `RealFacts.v` prove what they denote over Coq's reals. Rounding of
  Python floats is not modelled: a near-tie that rounding decides differently is outside the model. Probabilities and scores are exact rationals.
* **Randomness**: every `shuffle` is an arbitrary function `tick -> list -> list`, constrained to permutations; the same holds for
  Python set iteration order. Theorems quantify over it, so they hold for every random_state.
* **`int(len * size)`**: an arbitrary integer function `e_split` with the stated range hypotheses (`env_ok`), so float rounding of the product is covered;
  what is excluded is a prune_size so small (<~1e-16) that `1 - prune_size` rounds to 1.0.
* **Sets** of labels are duplicate-free lists; only membership and cardinality are observed.
* **Loops** are recursions on fuel computed from the data, with an `OutOfFuel` error; totality theorems prove that it never occurs.
* **hash** is an arbitrary function of the sorted tuple of condition strings.
* **Mutation** is returning the new value; sharing of mutable objects between two classifiers is modelled separately (`Heap.v`).
* Quantile computation (`pd.qcut`, `pd.cut`) is a parameter of the model of `fit` (`w_cut`: for a column and a number of bins, the edges used for sorting the values and the rounded ones shown); theorems range over every choice that meets `PrepSpec.cuts_ok`. `Cut.v` defines pandas' choice in exact rational arithmetic (quantiles by interpolation, dropped repetitions, equal-width fallback, `_round_frac`, `_infer_precision`, `repr` of the rounded edge) and `CutFacts.pandas_cut_ok` proves that it meets the assumption; the numpy engine's `_numpy_cut` is defined there too.
* Printing at verbosity levels is modelled where it can raise (`rnd`), in `Verbose.v`; the text printed is not modelled.

Not modelled: the wording of warnings (their kinds and what they name are, in `Warn.v`), sklearn/keras/torch adapters beyond "some function of X", file I/O (there is none),
performance, dtype inference (`infer_objects`; the kind of a column, numeric or text, is what pandas infers from its values).
Unreachable or unused code that is not modelled: `Rule.__add__`, `BinTransformer.fit_or_fittransform_`,
`_set_theory_dl_lookup`, `_upgrade_bin_transformer_ifdepr`, `_thresholds_to_intervals`, `_max_dec_precision`, `aslist`, `flagged_return`, `min_max_smooth`.

## 3. Trusted base

Coq 8.16.1 kernel; the standard library. `Print Assumptions` stands under each theorem, and `ASSUMPTIONS.md` (written by
`tools/assumptions.py` from the compiled theories) gives its answer for every theorem of the manifest: all are "Closed under the
global context" except those of C22, C23, C36, C37, C74, C75, C91, C92, C101 whose statements speak about real logarithms (`RealSpec.v`), which use the
axioms of Coq's classical reals: `ClassicalDedekindReals.sig_forall_dec`, `ClassicalDedekindReals.sig_not_dec`,
`FunctionalExtensionality.functional_extensionality_dep`, `Classical_Prop.classic`. (The names `RbaseSymbolsImpl.*` and `ssrunder.*` that `coqchk`-like
listings of a compiled library also show are opaque fields of standard-library modules that are loaded, not axioms a theorem here uses.)
No axioms of our own, no admitted proofs, no functors, no plugins.
The model itself (faithfulness to the Python text) is trusted: nothing is extracted or run against the code.

## 4. Plan per property

| id | model and proof |
|---|---|
| C01 | `ruleset_predict`; equivalence with row satisfaction, unique labels; induction over rules and conditions |
| C02 | refutation by a 2-row frame with equal labels; true for distinct labels (corollary of C01); exact label-level statement for repeated labels |
| C03 | `ruleset_predict_reasons`; list equality with a filter |
| C04 | filter algebra |
| C05 | refutation (overlapping rules); exact multiplicity law; upper/lower bounds; CatNap counterpart counts once |
| C06 | case analysis on missing column; error propagation through the fold |
| C07 | two frames agreeing on mentioned features; relational induction |
| C08 | set-of-strings equality |
| C09 | refutation by repeated conditions; partial: rules without repeated conditions (permutation + sorted uniqueness) |
| C10 | refutation (int 1 vs text "1"); partial: when printing is injective on the values that occur |
| C11 | refutations; partial for safe characters and non-empty rules (round trip through split/strip/replace) |
| C12 | characterisation of the parsers |
| C13 | refinement to list operations |
| C14 | induction with the "encountered" set as invariant, arbitrary hash |
| C15 | strong induction on length |
| C16-C19 | list / arithmetic lemmas; Pascal recurrence for nCr |
| C20 | index maps = coverage; refuted corner (universal ruleset, empty subset) and exact theorem |
| C21 | refutation by computation on a concrete frame; partial: IREP engines agree when the candidate lists agree |
| C22 | argmax over candidates in the exact log domain (+ real-valued version) |
| C23 | measure = covered negatives |
| C24 | downward scan invariant |
| C25 | IREP loop: remaining positives decrease |
| C26-C33 | invariants of the learner loops; C31 (RIPPER) and C33 refuted by computation, IREP/grow parts proved |
| C34 | RIPPER totality: rule invariant `k < n`, prune set non-empty, binomials positive |
| C35 | refutation by computation (None rule); partial: with k=0 training without pruning never raises |
| C36 | value in log domain and over the reals |
| C37 | sub-list and the exact criterion for keeping each rule proved (`keep_exact`); "never increases" refuted by computation |
| C38 | loop invariant |
| C39 | CatNap engine refuted by computation; other engine proved |
| C40-C44 | rational arithmetic; C43, C44 refuted, partial theorems state what does hold |
| C45-C47 | counting |
| C48-C51 | labels, interval search; C50, C51 refuted at thresholds / nan, partial off them |
| C52-C54 | case analysis; C53, C54 refuted with partials |
| C55 | refuted (selected features computed before trimming); partial: sufficient with `selected_features_` |
| C56 | invariant over API call sequences |
| C57 | `Heap.v`: programs over several models with shared mutable objects; separation invariant + frame + simulation by independent values; refuted for shared Rule objects and failed IREP.fit |
| C58 | refuted; partial for values without a dash; exact characterisation in C109 |
| C59 | `Verbose.v`: the learners with their printing (rnd may raise); simulation by the silent learners; refuted at verbosity 5 (rnd(None) when nothing is held out for pruning, rnd(-inf) without features); otherwise proved at every verbosity; partial |
| C60 | API function, arbitrary black box returning an array or a list; refuted for a one-element array (`try_np_tonum` makes it a bare number), partial: all other outputs |
| C61 | case analysis of the input forms; unnamed Series refuted |
| C62 | fold of set_param; unlisted names refuted |
| C63 | recalibration on the preprocessed training table; IREP order of trimming refuted |
| C64 | two environments with the same draws but different hash functions and set orders; simulation of the learners; refuted for the engine without CatNap and for text row labels |
| C65 | two batches; corollary of the row-wise characterisation of predict |
| C66 | fit as a function of hyperparameters and arguments only |
| C67 | case analysis of the failure points of fit; refuted by concrete failing fits |
| C68 | mean of numbers above 1/2 is above 1/2; refuted by fitted models |
| C69 | out_pretty is a character-wise substitution on str(list of rule strings); truncstr by list surgery; refuted for commas/blanks and limit 0 |
| C70 | effect of each edit on the rule list (C56's session specification) composed with the characterisation of predict (C01) |
| C71 | predict depends only on the set of condition lists |
| C72 | a learned rule is a prefix of a chain that covered a positive when grown; RIPPER: stage invariant "fires on a positive", kept by replacement and revision |
| C73 | a second test of a feature would leave the covered negatives unchanged, contradicting the strict decrease in the growing loop; invariant through pruning, optimisation and subset selection |
| C74 | invariant of the growing loop (`Allowance.inv`): theory bits, minimum over the non-empty prefixes and last excess are exactly those of the rules added; translated into real bits by C36 |
| C75 | run of the optimisation loop slot by slot (`gopt_exact`, `gpass_exact`), argmin characterised, duplicates excluded by the membership test |
| C76 | `TrainView.train_view`: the table learned from is the user's table seen through the fitted bins, plus the labels; then C03/C55/C72 |
| C77 | C28 for fit transported to predict and score along `train_view` |
| C78 | relation `same_view` between two labelled tables with the same features; every step of fit (binning, index, learners, recalibration) is shown to respect it |
| C79 | what `fit` stores, traced through the pandas model of Cut.v; counting of distinct values by a pigeonhole lemma. False in general: a column with a missing value whose other values are nearly all equal is not discretised (`C79_missing_value_refuted`) |
| C80 | relation `relabel` between two labelled tables (same features, same answers to "positive?"), respected by binning, index, learners and recalibration; rules never mention the class (C26) |
| C81 | `finish_conds` + C14 + C09; False for == in general: rules of an initial model that repeat a condition (`C81_equal_rules_refuted`) |
| C82 | NaN is unequal to everything and is binned to NaN (`shown_missing`); C01, C03, C40, C73 |
| C83 | C29 + C01; False in general: bins are fitted afresh so kept rules go dead (`C83_bins_refuted`), RIPPER drops rules (`C83_ripper_refuted`) |
| C84 | trace of fit (`fit_fitted`), `raw_drop` for the columns, duplicates removed only among rules that print alike |
| C85 | `Prop_Interpret.v`: interpret_model = fit on the black box's answers (single-answer arrays are broadcast over the one row); then C76/C77/C52/C25/C34 with the implicit class name |
| C86 | `Prop_Examples.v`, `ExamplesSpec.v`: the rows of the prediction table picked by a rule, put_col by label lookup; DataFrame.sample is any function returning k different rows |
| C87 | `Useful.v`, `Prop_Useful.v`, `UsefulSpec.v`: the gain threshold forces a strictly smaller negative cover at each growing step; prefixes (pruning, halting) keep it; the invariant is carried through RIPPER's stages |
| C88 | `Useful.v`, `Prop_Useful.v`: the positives remaining when a rule is grown are those no earlier new rule covers; an accepted rule covers one of them |
| C89 | histories of SessionSpec.perform from a constructed classifier; induction over the history |
| C90 | invariant over histories relating the calls made so far to the presence of rules and of the (empty) bin transformer |
| C91 | refinement: the training loop is shown to satisfy the relation irep_run of AlgoSpec (declarative, on tables and row labels), then lifted to fit |
| C92 | refinement: the four stages are shown to satisfy the relation ripper_run of RipperAlgoSpec (declarative, on tables, row labels and real-valued bits), then lifted to fit; the incremental bookkeeping (Allowance.inv) is shown to compute the description lengths of the specification |
| C93 | Store.v: DataFrames, arrays, Series and lists as objects of a store; the in-place operations (column assignment, column names, drop(inplace=True)) overwrite an object; preprocessing and the API calls written on references, statement by statement. StoreFacts.v: simulation of the value model of Classifier.v; every write hits an object the call has made. Not modelled: buffers shared by an array and the DataFrame made from it. |
| C94 | irep_grow(_cn), ripper_grow(_cn), the later RIPPER stages on an empty rule set (total), and the run of the IREP loop (irep_train_run); the surviving rules are a sublist of the trained ones, so the examples left before a rule are a superset. |
| C95 | Prop_Matters.v: a rule costs at least one bit of theory, so a rule the final stage keeps must make the exceptions cheaper, hence must change the covered examples; the first rule fires (C72). Duplicate removal and trimming keep sublists. Refutation for cn_optimize=False by computation on a 16-row table. |
| C96 | RenameSpec.v states when two tables are renamings and two models correspond; RenSim.v relational lifting for the result monad and list functions; RenTrain.v a simulation of IREP and RIPPER training (CatNap and DataFrame engines) on related tables; RenFit.v bins, recalibration, duplicate removal, trimming; Prop_Rename.v composes them with the input forms of C26 and the prediction view of C76. |
| C97 | Prop_OneSided.v: the learner loops evaluated on an empty list of positives or negatives for arbitrary splits; the stages of RIPPER on an empty rule set; composed with fit_run and C55. |
| C98 | Prop_Cutoff.v: simulation of the two growing loops up to the point where the stricter one stops; recalibration, duplicate removal and trimming shown to preserve prefixes; for the exact count C88 (every rule covers a new positive) shows that no rule is dropped as a duplicate. Refuted for RIPPER by a table of seven examples. |
| C99 | ExtraSpec.v says when a column adds nothing; Extra.v, Prop_Extra.v: the scan for the best condition keeps the first one with the greatest gain, so a condition marking the rows of an earlier one, or all rows, is never chosen; bins of a column depend on that column only; then an induction over growing, pruning and the covering loop. Refuted for RIPPER and for a copy on the left by concrete tables. |
| C100 | OrderSpec.v says what a reordering is; RowSim.v: every set operation, gain, description length, pruning step and covering loop of the learners gives the same result on index lists that are permutations of each other up to a one-to-one renaming of the labels; RowTrain.v: training and calibration of the two frames; Prop_Order.v: the discretisation (two orders of a column whose values first appear in the same order, cut at the same places, give the same bins and the same first appearances of the bins), the calls of fit, the predictions, and a table on which swapping two examples changes the model. |
| C101 | ripper_train with cnopt=false and fit; the algorithm is the relation tally_run of TallySpec; refinement by the generic loops of RipperFacts on rows, carried over to labels (TallyAlgo) |
| C102 | Cut.v's quantiles, rounding and shown edges and fit_bins; QuantSpec.v says what a quantile is; QuantFacts.v: the rank of each quantile in a strictly sorted list, hence strictly increasing edges and no empty bin; rounding error from CutFacts; the parts of the sorted list between quantiles. Lopsided bins by computation on nine numbers. QuantTies.v: columns with repeated values, where equal quantiles are dropped, and the equal-width fallback of pd.cut. |
| C103 | Passes.v models whether the message is printed and the iteration it names. PassFacts.v: a pass whose result is equal to its input as a set of rules returns its input in the same order (a replaced rule is one that was not in the ruleset), so keeping the old or the new ruleset is the same; hence the run with k=j, which keeps the new one, and the runs that halt agree; then the rest of fit does not read k. |
| C104 | clf_predict, clf_predict_reasons, clf_predict_proba through the view of ClfSpec (what the rules see of a value). same_bin is stated with the numbers and the ends of the intervals; the transformed value depends on which intervals contain the number only. Outliers: bound on all finite ends, first and last bin without limit (C79), labels determine ends (C48). |
| C105 | two worlds with other shuffles, e_split and set_order. With prune_size 0 the growing part of a split is a permutation of the whole; RowSim/RowTrain (C100) show that the learners do not depend on the order of their index lists; corollary of C100_row_order for the identity reordering, positive class given or inferred. A table of ten examples shows that pruning makes the state matter. |
| C106 | `Warn.v` computes the list of warnings (kind and what is named; not the wording) of a call of fit or predict from the same intermediate values as the model of the call; proved against the labels, the returned predictions and the fitted rules. A rule of two conditions cut off by max_total_conds=1 shows that fit's check comes before the trimming (C106_trimmed_refuted). |
| C107 | recalibrate computes from the conditions only (same_knowledge); histories by induction over `SessionSpec.perform_all` with the invariant same_model of C56 and unchanged hyperparameters. Example: two earlier recalibrations, one of which raises. |
| C108 | an inductive specification `unusable` of what is wrong and which exception it deserves, over the data as given; each call is unfolded to its check. Example: all kinds of unusable data, and two usable tables that are not. |
| C109 | C58 exactly: specification of 'a - b' by first and only occurrence of " - ", dashes by counting; str.split is proved to meet it by induction on the text; the passes over the conditions (all values first, then all sort keys) give the priority of the exceptions. Example: a date, a number, a bad floor, a range, and a model with two bad values. |
| C110 | both classifiers' predictions are described by C55/C58 in the vocabulary of ClfSpec; the conditions of a fitted model on discretised features are labels or missing (C26 and what transform returns), so a number never meets them. Example: a model on a discretised column, raw numbers and a discretised table. |
| C111 | C70 gives the rows whose prediction changes; the confusion counts before and after differ by the newly covered examples (induction on the rows); precision and F1 by the mediant inequality over the rationals. Example: a rule put in front of a fitted model, one more true positive. |
| C112 | Columns of the transformed table are the cut columns (C99's column-by-column lemma); a cut column holds only text and NaN, so it is never continuous again, and the second fit sees the same table with no bins: both runs of the learner are the same call. Predictions by the specification of predict (C01) on both sides. Example: the people table of Prop_FitModel. |
| C113 | Two simulations over histories of calls: equality up to the hyperparameters (no alpha set), and equality of rules, class, bins and feature lists (any parameter), each preserved by every call. The answers are then compared call by call. fit is not among the calls: it reads the hyperparameters (C62), and starts over (C66). |
| C114 | One Boolean vector per rule (what it covers), the predictions as their pointwise or, and an induction over the rules for the tallies of positives and negatives. Recall None (no positive label) is covered. |
| C115 | conditions of one rule: C73 (no feature twice), C84 (features selected) and C26 (each condition's feature is a column), with a pigeonhole; rules: C88's witness rows for IREP and C95's for RIPPER are distinct rows of the binned table, which has as many rows as there are labels. RIPPER with cn_optimize=False is left out of the rule-count part, because the witness property is refuted there (C95_without_catnap_refuted). C115_rule_count covers every engine and initial model: one rule per round, one round per positive example at most, and only stages 1 and 3 of RIPPER add rules |
| C116 | each stored statistic counts a subset of the N rows (C41, C63; for IREP with a trimmed rule set the uncovered count is still of a subset of the rows), so its smoothed frequencies lie in the interval; a mean of such pairs (C40) stays in it |

## 5. What the proofs found out about the code

Every statement below is a theorem (name in parentheses; `_refuted` = the natural property is false, with a concrete run of the model as the proof).

* Index labels decide predictions: rows sharing a label share their answer (`C02_predict_depends_on_labels_refuted`).
* `Ruleset.covers` / `num_covered` count an example once per covering rule (`C05_covers_counts_twice_refuted`).
* Equal rules may have different hashes, so duplicates can survive duplicate removal (`C09_equal_rules_hash_refuted`, `C81_equal_rules_refuted`).
* Rules are compared by printed text, so `1` and `"1"` make equal rules with different coverage (`C10_equal_rules_cover_refuted`).
* Printed models do not always parse back (C11), and a discretised model given as text may never match (C58).
* `cn_optimize` is not only an optimisation: with False only values that occur in both classes are considered (C21), the result depends on the hash seed
  (`C64`), and RIPPER prunes although `prune_size=0`.
* `prune_size=None` makes RIPPER crash in the optimisation stage (C35); `alpha=0` divides by zero.
* RIPPER does not respect `max_rule_conds` (C31) nor `min_rule_samples` (C33) and its final MDL stage can increase the description length (`C37_mdl_refuted`).
* RIPPER's stage "cover remaining positives" with the CatNap engine starts from *all* positives (C39).
* `min_samples` / `require_min_samples` of recalibration are ignored (C43); probabilities are unavailable after some edits (C44) and may disagree with predict (C68).
* The numpy binning engine can put a value in a bin that does not contain it, or crash in fit (C50); foreign bins are not rejected (C51).
* A Series `y` with another index or length silently gives wrong or missing labels (C53); an unnamed Series always raises (C61).
* `min_rule_samples` is missing from the list of valid hyperparameters (C54, C62).
* `selected_features_` is computed before trimming, so predict may demand features no rule uses (C55).
* Objects are shared between models after `add_rule` and a failed `IREP.fit` (C57); failing fits leave half-changed models (C67).
* At verbosity 5 printing can raise and stop training (C59).
* Warm start refits the bins, so kept rules can go dead, and RIPPER drops rules of the initial model (C83).
* A missing value in a skewed numeric column prevents discretisation (C79).
* fit's warnings "universal"/"empty" are about the rules before max_total_conds trims them, so an empty fitted model can come without a warning (`C106_trimmed_refuted`); a model
  given with init_ruleset warns, at its first prediction, about a "problem parsing range" for each ordinary condition `[feature=text]` (`C106_first_predict`).
* The limits of the bins are rounded to hundredths, which can put nearly all values in one bin (`C102_balanced_refuted`).
* A fitted model with discretised features, given to a new classifier as rules or text (init_ruleset), never fires on raw numbers: the rules are carried over, the
  bins are not (`C110_new_classifier`). Whether such a classifier's first prediction raises depends on its condition values alone (`C109_first_predict_exact`).
