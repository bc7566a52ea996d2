(** * ExtraSpec.v : a table with one more column, and columns that say nothing new (C99) *)
From Verif Require Export BinSpec CallSpec PrepSpec.
Open Scope nat_scope.

(** [fr'] is [fr] with the feature column [g] added between the features [A] and [B]; [f] is the class column *)
Record one_more (f g : pyval) (A B : list pyval) (fr fr' : frame) : Prop := mkmore {
  om_cols : feature_columns f fr = A ++ B; om_cols' : feature_columns f fr' = A ++ g :: B;
  om_rows : length (frows fr) = length (frows fr');
  om_cells : forall i r r' h v, nth_error (frows fr) i = Some r -> nth_error (frows fr') i = Some r' -> In h (A ++ B) -> (value_at (fcols fr) r h v <-> value_at (fcols fr') r' h v) }.
(** column [h] is not discretised: there are no bins, or it is not numeric, or it has few values *)
Definition kept_as_is (nbins : option Z) (fr : frame) (h : pyval) : Prop :=
  forall n cs, nbins = Some n -> (0 < n)%Z -> column_values fr h cs -> ~ (numeric cs /\ more_than n cs).
(** column [g] says nothing that the columns [A] do not say: it is a copy of one of them; or each of its values (missing values apart) is the value of every row, or marks the same
    rows as a value of a column of [A] *)
Definition adds_nothing (nbins : option Z) (fr : frame) (g : pyval) (A : list pyval) : Prop :=
  (exists h, In h A /\ forall r v, In r (frows fr) -> (value_at (fcols fr) r g v <-> value_at (fcols fr) r h v)) \/
  (kept_as_is nbins fr g /\ forall r v, In r (frows fr) -> value_at (fcols fr) r g v -> v <> PNaN ->
     (forall s w, In s (frows fr) -> value_at (fcols fr) s g w -> py_eq w v = true) \/
     exists h u, In h A /\ kept_as_is nbins fr h /\ forall s w, In s (frows fr) -> value_at (fcols fr) s g w ->
       (py_eq w v = true <-> exists w', value_at (fcols fr) s h w' /\ py_eq w' u = true)).
