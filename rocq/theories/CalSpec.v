(** * CalSpec.v : vocabulary for calibrating a classifier on labelled data (C40-C44 at the level of the classifier) *)
From Verif Require Export ClfSpec.
Open Scope nat_scope.

(** [fr] is the table the user means by X and feature_names in a recalibration call, [vs] the labels row by row, [ix] the rows' index. Either the class
    column is one of the table's, or the labels are given (a Series must then carry the class feature's name). *)
Inductive calibration_input (X : data) (y : option ydata) (names : option (list pyval)) (cf : pyval) (fr : frame) (vs : list pyval) (ix : list nat) : Prop :=
| cal_column : y = None -> table_of X names fr -> column_present fr cf -> column_values fr cf vs -> ix = labels (frows fr) ->
    calibration_input X y names cf fr vs ix
| cal_labels : forall y', y = Some y' -> names_class (Some cf) y' cf -> py_eq cf cf = true -> table_of X names fr -> series_ok y' ->
    vs = y_vals y' -> length vs = length (frows fr) -> ix = label_index y' fr -> calibration_input X y names cf fr vs ix.

(** the data of a recalibration call suits rules [rs] and bins [bt]; the class itself is not binned *)
Record calibrates (rs : list rule) (cf : pyval) (bt : bin_transformer) (X : data) (y : option ydata) (names : option (list pyval))
  (fr : frame) (vs : list pyval) : Prop := mkcalibrates {
  ca_input : exists ix, calibration_input X y names cf fr vs ix /\ NoDup ix;
  ca_good : good_frame fr; ca_rows : frows fr <> [];
  ca_bt : sound_bt bt; ca_class : forall b, ~ bins_for bt cf b; ca_binnable : binnable bt fr cf;
  ca_rules : forall f, mentions rs f -> usable fr cf f }.

(** [s] are the statistics of the rows where [P] holds: (negatives, positives), their fractions, and the fractions smoothed with [alpha] *)
Definition stats_where (alpha : Q) (P : row -> Prop) (pc : pyval) (rows : list row) (vs : list pyval) (s : stats) : Prop :=
  exists neg pos, counted P pc rows vs false true neg /\ counted P pc rows vs true true pos /\ st_ns s = (neg, pos) /\
    (neg + pos = 0 -> st_freqs s = (0, 0)%Q) /\
    (neg + pos <> 0 -> (fst (st_freqs s) == qn neg / qn (neg + pos))%Q /\ (snd (st_freqs s) == qn pos / qn (neg + pos))%Q) /\
    (fst (st_smooth s) == (qn neg + alpha) / (qn (neg + pos) + 2 * alpha))%Q /\
    (snd (st_smooth s) == (qn pos + alpha) / (qn (neg + pos) + 2 * alpha))%Q.
