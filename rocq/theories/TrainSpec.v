(** * TrainSpec.v : vocabulary for what a fitted model says about its own training data (C76, C77) *)
From Verif Require Export ClfSpec.
Open Scope nat_scope.

(** the two tables have the same rows, in the same order, apart from the row labels, the order of the columns and the class column *)
Definition same_data (f : pyval) (fr fr2 : frame) : Prop :=
  length (frows fr2) = length (frows fr) /\
  (forall g, py_eq f g = false -> (column_present fr g <-> column_present fr2 g)) /\
  forall i rx rx2 g v, nth_error (frows fr) i = Some rx -> nth_error (frows fr2) i = Some rx2 -> py_eq f g = false ->
    (value_at (fcols fr) rx g v <-> value_at (fcols fr2) rx2 g v).
(** any two rows, one with the positive class and one without, are told apart by some feature, as seen through the bins *)
Definition told_apart (bt : bin_transformer) (f p : pyval) (fr : frame) (vs : list pyval) : Prop :=
  forall i j ri rj vi vj, nth_error (frows fr) i = Some ri -> nth_error (frows fr) j = Some rj -> nth_error vs i = Some vi -> nth_error vs j = Some vj ->
    py_eq vi p = true -> py_eq vj p = false ->
    exists g a b, py_eq f g = false /\ sees bt (fcols fr) ri g a /\ sees bt (fcols fr) rj g b /\ py_eq a b = false.
(** no value is missing, not even after binning, and every column has a proper name *)
Definition nothing_missing (bt : bin_transformer) (f : pyval) (fr : frame) : Prop :=
  (forall c, In c (fcols fr) -> py_eq c c = true) /\
  forall rx g v, In rx (frows fr) -> py_eq f g = false -> sees bt (fcols fr) rx g v -> v <> PNaN.
(** "feature=value" text determines the feature and the value, among the values seen in the data *)
Definition occurs (bt : bin_transformer) (f : pyval) (fr : frame) (c : cond) : Prop :=
  In (cfeat c) (fcols fr) /\ py_eq f (cfeat c) = false /\ exists rx, In rx (frows fr) /\ sees bt (fcols fr) rx (cfeat c) (cval c).
Definition text_tells (bt : bin_transformer) (f : pyval) (fr : frame) : Prop :=
  forall c d, occurs bt f fr c -> occurs bt f fr d -> cond_str c = cond_str d ->
    py_eq (cfeat c) (cfeat d) = true /\ py_eq (cval c) (cval d) = true.
