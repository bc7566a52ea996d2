(** * OrderSpec.v : the same examples in another order (C100) *)
From Verif Require Export ExtraSpec.
From Coq Require Export Permutation.
Open Scope nat_scope.

(** the i-th row of [fr'] is row number [s_i] of [fr], with its class; [f] is the class column, [vs], [vs'] are the classes of the rows *)
Record reordered (f : pyval) (fr : frame) (vs : list pyval) (fr' : frame) (vs' : list pyval) (s : list nat) : Prop := mkreord {
  ro_cols : feature_columns f fr' = feature_columns f fr;
  ro_rows : length (frows fr') = length (frows fr);
  ro_perm : Permutation s (seq 0 (length (frows fr)));
  ro_cells : forall i j r r' g v, nth_error s i = Some j -> nth_error (frows fr) j = Some r -> nth_error (frows fr') i = Some r' -> In g (feature_columns f fr) ->
    (value_at (fcols fr) r g v <-> value_at (fcols fr') r' g v);
  ro_class : forall i j, nth_error s i = Some j -> nth_error vs' i = nth_error vs j }.
(** in every feature the values make their first appearance in the same order: df[g].unique() is the same *)
Definition same_first (f : pyval) (fr fr' : frame) : Prop :=
  forall g cs cs', In g (feature_columns f fr) -> column_values fr g cs -> column_values fr' g cs' -> unique cs' = unique cs.
(** the row labels move with the rows *)
Definition labels_move (s ix ix' : list nat) : Prop := forall i j, nth_error s i = Some j -> nth_error ix' i = nth_error ix j.
(** the random splits depend on which examples are split, not on their order *)
Definition order_blind (e : env) : Prop := forall t l l', Permutation l l' -> shuf e t l = shuf e t l'.
(** [g] needs no bins, or the two orders of its values are cut at the same places *)
Definition same_bins (nbins : option Z) (w w' : world) (fr fr' : frame) (g : pyval) : Prop :=
  kept_as_is nbins fr g \/ forall n cs cs', nbins = Some n -> column_values fr g cs -> column_values fr' g cs' -> w_cut w n cs = w_cut w' n cs'.
