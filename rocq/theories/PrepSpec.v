(** * PrepSpec.v : vocabulary for user data, labels and classes (C25, C34, C52, C53, C61) *)
From Verif Require Export Spec DiscSpec Preprocess.
Open Scope nat_scope.

(** the table a user means by X and feature_names: a DataFrame (renamed), or rows of equal length, numbered from 0 *)
Inductive table_of : data -> option (list pyval) -> frame -> Prop :=
| table_frame : forall fr, table_of (DFrame fr) None fr
| table_frame_named : forall cols rs l, length l = length cols -> table_of (DFrame (mkframe cols rs)) (Some l) (mkframe l rs)
| table_rows : forall rows w fr, rows <> [] -> (forall r, In r rows -> length r = w) ->
    map rcells (frows fr) = rows -> labels (frows fr) = seq 0 (length rows) ->
    fcols fr = map (fun i => PInt (Z.of_nat i)) (seq 0 w) -> table_of (DRows rows) None fr
| table_rows_named : forall rows w fr, rows <> [] -> (forall r, In r rows -> length r = w) ->
    map rcells (frows fr) = rows -> labels (frows fr) = seq 0 (length rows) ->
    length (fcols fr) = w -> table_of (DRows rows) (Some (fcols fr)) fr.

(** [df] is the table [fr] with the i-th label written in column [f] of the i-th row (other columns kept), rows indexed by [ix] *)
Definition labelled (fr : frame) (vals : list pyval) (f : pyval) (ix : list nat) (df : frame) : Prop :=
  labels (frows df) = ix /\ length (frows df) = length (frows fr) /\
  (forall g, column_present df g <-> column_present fr g \/ py_eq f g = true) /\
  forall i rx v, nth_error (frows fr) i = Some rx -> nth_error vals i = Some v ->
    exists rd, nth_error (frows df) i = Some rd /\ value_at (fcols df) rd f v /\
      forall g w, py_eq f g = false -> (value_at (fcols df) rd g w <-> value_at (fcols fr) rx g w).

(** the index of the labelled table: the Series' index if y is a Series, else the table's own *)
Definition label_index (y : ydata) (fr : frame) : list nat := match y with YSeries _ ix _ => ix | YList _ => labels (frows fr) end.
Definition series_ok (y : ydata) : Prop := match y with YSeries _ ix vals => length ix = length vals | YList _ => True end.
(** the name of the label column when class_feat is not given *)
Definition default_name (y : ydata) : option pyval := match y with YSeries n _ _ => n | YList _ => Some (PStr (lit "Class")) end.

(** what is assumed of the edges pandas chooses for a numeric column with more different values than bins: the shown ones are
    increasing, and every number of the column lies between the first and the last (unrounded) one. Cut.v's model of pandas'
    choice meets it ([CutFacts.pandas_cut_ok]). *)
Definition cuts_ok (cut : Z -> list pyval -> list edge) : Prop :=
  forall n vs, (0 < n)%Z -> is_numeric_col vs = true -> (n < Z.of_nat (length (unique vs)))%Z ->
    increasing (map e_shown (cut n vs)) /\ 2 <= length (cut n vs) /\
    forall v x, In v vs -> num_of v = Some x ->
      exists lo mid hi, cut n vs = lo :: mid ++ [hi] /\ (e_at lo <= x /\ x <= e_at hi)%Q.

(** two labels count as the same class label *)
Definition same_label (a b : pyval) : Prop := uniq_eq a b = true.
(** all the labels are the same *)
Definition one_label (vs : list pyval) (a : pyval) : Prop := In a vs /\ forall v, In v vs -> same_label a v.
(** the name of the label column: class_feat if given (a Series' name has to agree), else the Series' name, else "Class" *)
Inductive names_class (cf : option pyval) (y : ydata) : pyval -> Prop :=
| names_given_list : forall f vals, cf = Some f -> y = YList vals -> names_class cf y f
| names_given_series : forall f n ix vals, cf = Some f -> y = YSeries (Some n) ix vals -> py_eq n f = true -> names_class cf y f
| names_series : forall n ix vals, cf = None -> y = YSeries (Some n) ix vals -> names_class cf y n
| names_default : forall vals, cf = None -> y = YList vals -> names_class cf y (PStr (lit "Class")).
(** every label is 0/False or 1/True *)
Definition is_zero (v : pyval) : Prop := py_eq v (PInt 0) = true.
Definition is_one (v : pyval) : Prop := py_eq v (PInt 1) = true.
Definition boolean (v : pyval) : Prop := exists b, v = PBool b.
(** the labels are 0/1 or False/True, and both occur *)
Definition binary (vs : list pyval) : Prop :=
  (forall v, In v vs -> is_zero v \/ is_one v) /\ (exists v, In v vs /\ is_zero v) /\ (exists v, In v vs /\ is_one v).

(** [vs] is the column [f] of [fr], row by row *)
Definition column_values (fr : frame) (f : pyval) (vs : list pyval) : Prop :=
  length vs = length (frows fr) /\
  forall i rw v, nth_error (frows fr) i = Some rw -> nth_error vs i = Some v -> value_at (fcols fr) rw f v.
(** Well-formed arguments of fit: a non-empty table with the class column [f] in it, or a table and as many labels.
    [vs]: the labels row by row; [ix]: the index of the training rows *)
Inductive training_input (X : data) (y : option ydata) (cf : option pyval) (names : option (list pyval))
  (f : pyval) (vs : list pyval) (ix : list nat) : Prop :=
| input_column : forall fr, y = None -> cf = Some f -> table_of X names fr -> good_frame fr -> frows fr <> [] ->
    column_present fr f -> column_values fr f vs -> ix = labels (frows fr) -> training_input X y cf names f vs ix
| input_labels : forall y' fr, y = Some y' -> names_class cf y' f -> py_eq f f = true -> table_of X names fr -> good_frame fr ->
    frows fr <> [] -> series_ok y' -> vs = y_vals y' -> length vs = length (frows fr) -> ix = label_index y' fr ->
    training_input X y cf names f vs ix.
