(** * RelabelSpec.v : two encodings of the same classes (C80) *)
From Verif Require Export CallSpec.
Open Scope nat_scope.

(** the same feature columns with the same values row by row, the class columns (if any) being [f] and [f'] *)
Definition same_feature_data (f f' : pyval) (fr fr' : frame) : Prop :=
  feature_columns f fr = feature_columns f' fr' /\ map (feature_cells f fr) (frows fr) = map (feature_cells f' fr') (frows fr').
(** the rows labelled [p] in [vs] are the rows labelled [p'] in [vs'] *)
Definition same_positives (p p' : pyval) (vs vs' : list pyval) : Prop :=
  length vs = length vs' /\ forall i v v', nth_error vs i = Some v -> nth_error vs' i = Some v' -> (py_eq v p = true <-> py_eq v' p' = true).
