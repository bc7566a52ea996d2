(** * RenameSpec.v : the same training data under other names (C96) *)
From Verif Require Export RelabelSpec BinSpec Classifier.
Open Scope nat_scope.

(** the cell in the [j]-th feature column of the [i]-th row (a missing value if there is no such cell) *)
Definition value_ij (f : pyval) (fr : frame) (i j : nat) : pyval := nth j (feature_cells f fr (nth i (frows fr) (mkrow 0 []))) PNaN.
(** The tables have the same shape, and two cells of a column are equal (and print the same) in the one iff they are (and do) in the other:
    the one arises from the other by giving the columns, the values within each column, and the rows other names. *)
Definition recoded (f f' : pyval) (fr fr' : frame) : Prop :=
  length (feature_columns f fr) = length (feature_columns f' fr') /\ length (frows fr) = length (frows fr') /\
  forall i k j, i < length (frows fr) -> k < length (frows fr) -> j < length (feature_columns f fr) ->
    (py_eq (value_ij f fr i j) (value_ij f fr k j) = true <-> py_eq (value_ij f' fr' i j) (value_ij f' fr' k j) = true) /\
    (py_str (value_ij f fr i j) = py_str (value_ij f fr k j) <-> py_str (value_ij f' fr' i j) = py_str (value_ij f' fr' k j)).
(** the values of the [j]-th feature column *)
Definition values_of (f : pyval) (fr : frame) (j : nat) : list pyval := map (fun i => value_ij f fr i j) (seq 0 (length (frows fr))).
(** a column has its values kept, or is a column of numbers in neither table *)
Definition numbers_kept (f f' : pyval) (fr fr' : frame) : Prop :=
  forall j, j < length (feature_columns f fr) ->
    (values_of f fr j = values_of f' fr' j) \/ (~ numeric (values_of f fr j) /\ ~ numeric (values_of f' fr' j)).
(** all values kept: only the columns and the rows have other names *)
Definition values_kept (f f' : pyval) (fr fr' : frame) : Prop :=
  forall i j, i < length (frows fr) -> j < length (feature_columns f fr) -> value_ij f fr i j = value_ij f' fr' i j.
(** proper names of columns, with different texts and no "=" *)
Definition plain_names (l : list pyval) : Prop :=
  ~ In PNaN l /\ NoDup (map py_str l) /\ forall c, In c l -> ~ In "="%char (py_str c).

(** the row called [i] in the one table is the row called [i'] in the other *)
Definition same_row (ix ix' : list nat) (i i' : nat) : Prop := exists k, nth_error ix k = Some i /\ nth_error ix' k = Some i'.
(** the same outside world, but for hash values and the shuffles, which move corresponding rows alike *)
Record same_chance (ix ix' : list nat) (w w' : world) : Prop := mksame_chance {
  sc_shuf : forall t l l', Forall2 (same_row ix ix') l l' -> Forall2 (same_row ix ix') (shuf (w_env w) t l) (shuf (w_env w') t l');
  sc_split : forall s n, e_split (w_env w) s n = e_split (w_env w') s n;
  sc_set : forall l, set_order (w_env w) l = set_order (w_env w') l;
  sc_cut : forall n l, w_cut w n l = w_cut w' n l }.

(** the [j]-th feature column of both tables *)
Definition same_feature (f f' : pyval) (fr fr' : frame) (g g' : pyval) : Prop :=
  exists j, nth_error (feature_columns f fr) j = Some g /\ nth_error (feature_columns f' fr') j = Some g'.
(** the feature has bins *)
Definition has_bins (bins : list (pyval * list str)) (g : pyval) : Prop := exists b, In (g, b) bins.
(** The conditions test the same feature: for the same bin, if the feature has bins, else for the values that one example has in the two tables *)
Definition same_test (f f' : pyval) (fr fr' : frame) (bins : list (pyval * list str)) (c c' : cond) : Prop :=
  exists j, nth_error (feature_columns f fr) j = Some (cfeat c) /\ nth_error (feature_columns f' fr') j = Some (cfeat c') /\
    ((has_bins bins (cfeat c) /\ cval c = cval c') \/
     (~ has_bins bins (cfeat c) /\ exists i, i < length (frows fr) /\ cval c = value_ij f fr i j /\ cval c' = value_ij f' fr' i j)).
(** the rules make the same tests in the same order, and have the same class counts and probabilities *)
Definition same_rule (f f' : pyval) (fr fr' : frame) (bins : list (pyval * list str)) (r r' : rule) : Prop :=
  Forall2 (same_test f f' fr fr' bins) (conds r) (conds r') /\ rstats r = rstats r'.
(** the bins of the same feature, which has the same values in the two tables *)
Definition same_bins (f f' : pyval) (fr fr' : frame) (q q' : pyval * list str) : Prop :=
  exists j, nth_error (feature_columns f fr) j = Some (fst q) /\ nth_error (feature_columns f' fr') j = Some (fst q') /\ snd q = snd q' /\ values_of f fr j = values_of f' fr' j.
(** Two fitted models that are the same but for names *)
Record same_model (f f' : pyval) (fr fr' : frame) (c c' : clf) : Prop := mksame_model {
  sm_alg : c_alg c = c_alg c'; sm_hyper : c_hyper c = c_hyper c'; sm_classes : c_classes c = c_classes c';
  sm_rules : exists x x' bt bt' bins bins', c_rs c = Some x /\ c_rs c' = Some x' /\ c_bt c = Some bt /\ c_bt c' = Some bt' /\ bt_bins bt = Some bins /\ bt_bins bt' = Some bins' /\
    Forall2 (same_rule f f' fr fr' bins) (rs_rules x) (rs_rules x') /\ rs_uncov x = rs_uncov x' /\
    Forall2 (same_bins f f' fr fr') bins bins' /\ bt_thresholds bt = [] /\ bt_thresholds bt' = [];
  sm_sel : exists l l', c_sel c = Some l /\ c_sel c' = Some l' /\ Forall2 (same_feature f f' fr fr') l l';
  sm_feats : c_feats c = Some (feature_columns f fr) /\ c_feats c' = Some (feature_columns f' fr') }.
