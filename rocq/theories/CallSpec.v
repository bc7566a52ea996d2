(** * CallSpec.v : the features of a table (C78) *)
From Verif Require Export PrepSpec.
Open Scope nat_scope.

(** the names of the columns other than the class column [f], from left to right *)
Definition feature_columns (f : pyval) (fr : frame) : list pyval := filter (fun c => negb (py_eq c f)) (fcols fr).
(** the cells of a row in those columns *)
Definition feature_cells (f : pyval) (fr : frame) (r : row) : list pyval :=
  map snd (filter (fun p => negb (py_eq (fst p) f)) (combine (fcols fr) (rcells r))).
(** the same feature columns with the same values, row by row (wherever the class column is, if it is there at all) *)
Definition features_agree (f : pyval) (fr fr' : frame) : Prop :=
  feature_columns f fr = feature_columns f fr' /\ map (feature_cells f fr) (frows fr) = map (feature_cells f fr') (frows fr').
