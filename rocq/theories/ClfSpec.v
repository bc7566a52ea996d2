(** * ClfSpec.v : vocabulary for predictions of a classifier (C46, C47, C54-C56, C58, C60) *)
From Verif Require Export PrepSpec ProbaSpec DiscFacts Classifier.
Open Scope nat_scope.

(** the feature names without the class *)
Definition not_class (cf : pyval) (n : pyval) : Prop := py_eq n cf = false.
(** [fr] is the table a user means by X and feature_names in a prediction call. It may contain the class column, which is ignored;
    with feature_names given the data must not contain it. *)
Inductive prediction_input (X : data) (names : option (list pyval)) (cf : pyval) (fr : frame) : Prop :=
| predict_plain : names = None -> table_of X None fr -> prediction_input X names cf fr
| predict_named : forall l l' raw, names = Some l -> picks (not_class cf) l l' -> table_of X None raw -> ~ column_present raw cf ->
    table_of X (Some l') fr -> prediction_input X names cf fr.

(** [b] are the bins the transformer has for feature [f] *)
Definition bins_for (bt : bin_transformer) (f : pyval) (b : list str) : Prop :=
  exists bins g, bt_bins bt = Some bins /\ In (g, b) bins /\ py_eq g f = true.
(** a usable transformer: none fitted, or one list of disjoint increasing bins per feature *)
Definition sound_bt (bt : bin_transformer) : Prop :=
  bt_bins bt = None \/
  exists bins, bt_bins bt = Some bins /\ distinct_keys bins /\ bt_thresholds bt = [] /\
    forall g b, In (g, b) bins -> exists ivs, b = map label ivs /\ in_order ivs.

Definition number (v : pyval) : Prop := (exists z, v = PInt z) \/ (exists m k, v = PDec m k) \/ v = PNaN.
(** a column of numbers (or missing values) / of bin labels *)
Definition numeric_column (fr : frame) (f : pyval) : Prop := forall rw v, In rw (frows fr) -> value_at (fcols fr) rw f v -> number v.
Definition label_column (fr : frame) (f : pyval) (b : list str) : Prop :=
  forall rw v, In rw (frows fr) -> value_at (fcols fr) rw f v -> exists s, v = PStr s /\ In s b.
(** the data can be binned: every binned feature holds numbers, or bin labels already *)
Definition binnable (bt : bin_transformer) (fr : frame) (cf : pyval) : Prop :=
  forall f b, bins_for bt f b -> column_present fr f -> py_eq cf f = false -> numeric_column fr f \/ label_column fr f b.

(** the value [v] of feature [f] is seen by the rules as [w]: numbers of a binned feature as their bin's label, all else as it is *)
Definition shown (bt : bin_transformer) (f v w : pyval) : Prop :=
  ((exists s, v = PStr s) /\ w = v) \/
  ((forall b, ~ bins_for bt f b) /\ w = v) \/
  ((forall s, v <> PStr s) /\ exists ivs, bins_for bt f (map label ivs) /\ in_order ivs /\ binned ivs v w).
(** a row as seen through the bins satisfies a condition / a rule / a ruleset *)
Definition sees (bt : bin_transformer) (cols : list pyval) (rw : row) (f w : pyval) : Prop :=
  exists v, value_at cols rw f v /\ shown bt f v w.
Definition holds (bt : bin_transformer) (cols : list pyval) (rw : row) (r : rule) : Prop :=
  forall c, In c (conds r) -> exists w, sees bt cols rw (cfeat c) w /\ py_eq w (cval c) = true.
Definition some_holds (bt : bin_transformer) (cols : list pyval) (rw : row) (rs : list rule) : Prop :=
  exists r, In r rs /\ holds bt cols rw r.

(** the features are columns of the table, and not the class column *)
Definition usable (fr : frame) (cf f : pyval) : Prop := column_present fr f /\ py_eq cf f = false.
(** a classifier that was fitted or initialised, with rules [x], class feature and positive class, bins, and the features it asks for *)
Record ready (cl : clf) (x : ruleset) (cf pc : pyval) (sel : list pyval) : Prop := mkready {
  rd_rs : c_rs cl = Some x; rd_cf : c_cf cl = Some cf; rd_pc : c_pc cl = Some pc; rd_sel : c_sel cl = Some sel;
  rd_feats : c_feats cl <> None }.
(** the data of a prediction call suits the classifier *)
Record suits (cl : clf) (x : ruleset) (cf : pyval) (sel : list pyval) (bt : bin_transformer) (X : data) (names : option (list pyval)) (fr : frame)
  : Prop := mksuits {
  su_input : prediction_input X names cf fr; su_good : good_frame fr; su_rows : frows fr <> []; su_labels : distinct_labels fr;
  su_bt : sound_bt bt; su_binnable : binnable bt fr cf;
  su_sel : forall f, In f sel -> usable fr cf f;
  su_rules : forall f, mentions (rs_rules x) f -> usable fr cf f }.

(** [n] is the number of (row, label) pairs whose label is the positive class iff [a], and for which P holds iff [b] *)
Definition counted (P : row -> Prop) (pc : pyval) (rows : list row) (ys : list pyval) (a b : bool) (n : nat) : Prop :=
  exists l, picks (fun ry => py_eq (snd ry) pc = a /\ (P (fst ry) <-> b = true)) (combine rows ys) l /\ n = length l.
(** a fraction reported as None when its denominator is 0 *)
Definition fraction (o : option Q) (num den : nat) : Prop :=
  (den = 0 -> o = None) /\ (den <> 0 -> exists q, o = Some q /\ (q == qn num / qn den)%Q).
(** precision, recall and F1 of predicting P, from the counts; F1 is None when there is no true positive *)
Definition performance (P : row -> Prop) (pc : pyval) (rows : list row) (ys : list pyval) (o : option Q * option Q * option Q) : Prop :=
  exists tp fp fn, counted P pc rows ys true true tp /\ counted P pc rows ys false true fp /\ counted P pc rows ys true false fn /\
    fraction (fst (fst o)) tp (tp + fp) /\ fraction (snd (fst o)) tp (tp + fn) /\
    (tp = 0 -> snd o = None) /\ (tp <> 0 -> exists q, snd o = Some q /\ (q == qn (2 * tp) / qn (2 * tp + fp + fn))%Q).

(** [x]: the ruleset a user means by an initial model: nothing, a Ruleset, the text of one, or a fitted classifier *)
Inductive model_means : model_arg -> ruleset -> Prop :=
| means_none : model_means MNone (Ruleset_ [])
| means_no_rules : forall x, rs_rules x = [] -> model_means (MRuleset x) (Ruleset_ [])
| means_ruleset : forall x, rs_rules x <> [] -> model_means (MRuleset x) x
| means_no_text : model_means (MStr []) (Ruleset_ [])
| means_no_items : model_means (MSeq []) (Ruleset_ [])
| means_text : forall s l, s <> [] -> asruleset (OStr s) = Ok l -> model_means (MStr s) (Ruleset_ l)
| means_fitted : forall x, model_means (MClf (Some x)) x.
