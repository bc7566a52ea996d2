(** * Frame.v : DataFrames *)
From Verif Require Export Py.

(** A row: its index label (only equality of labels matters, hence [nat]) and its cells, positionally. *)
(* a row of a DataFrame: index label and cells *)
Record row := mkrow { rlab : nat; rcells : list pyval }.
(* pandas DataFrame *)
Record frame := mkframe { fcols : list pyval; frows : list row }.

(** position of a column (first match; column names are assumed distinct) *)
(* df[feature]: position of the column *)
Fixpoint col_pos (cols : list pyval) (f : pyval) : option nat :=
  match cols with
  | [] => None
  | c :: t => if py_eq c f then Some 0 else option_map S (col_pos t f)
  end.

(* feature in df.columns *)
Definition has_col (fr : frame) (f : pyval) : bool := existsb (fun c => py_eq c f) (fcols fr).

(** the cell of a row in column [f] *)
(* the cell of a row in a column *)
Definition cell (cols : list pyval) (f : pyval) (r : row) : option pyval :=
  match col_pos cols f with Some j => nth_error (rcells r) j | None => None end.

(** cell of a row compared with a value: [df[f] == v] at that row *)
(* base.py:450-452: df[feature] == val, one row *)
Definition cell_eq (cols : list pyval) (f v : pyval) (r : row) : bool :=
  match cell cols f r with Some w => py_eq w v | None => false end.

(* a DataFrame with the same columns *)
Definition with_rows (fr : frame) (rs : list row) : frame := mkframe (fcols fr) rs.

(** [df.index.tolist()] *)
(* df.index *)
Definition labels (rs : list row) : list nat := map rlab rs.

(** [df[df[f] == v]]; KeyError if there is no such column *)
(* base.py:450-452 [df[df[feature] == val]] *)
Definition select_eq (fr : frame) (f v : pyval) : res frame :=
  if has_col fr f then Ok (with_rows fr (filter (cell_eq (fcols fr) f v) (frows fr))) else Err KeyError.

(** [df.loc[labels]]: all rows carrying each requested label, in the requested order
    (labels that occur; a missing label would be a KeyError, the code only asks for labels it took from the frame) *)
(* df.loc[labels] / df.index.isin, base.py:116-129, catnap.py:102-103 *)
Definition loc (rs : list row) (ls : list nat) : list row :=
  flat_map (fun l => filter (fun r => Nat.eqb (rlab r) l) rs) ls.

(** [df.drop(labels)]: removes every row carrying one of the labels *)
(* df.drop(labels), base_functions.py:750-770 *)
Definition drop_labels (rs : list row) (ls : list nat) : list row :=
  filter (fun r => negb (nmem (rlab r) ls)) rs.

(** column as a list of cells, [df[f].tolist()] *)
(* df[feature] *)
Definition column (fr : frame) (f : pyval) : list pyval :=
  flat_map (fun r => match cell (fcols fr) f r with Some v => [v] | None => [] end) (frows fr).

(** [df[f].unique()]: distinct values in order of first occurrence *)
(* df[feature].unique(), catnap.py:15-50, base.py:158-170 *)
Definition unique (vs : list pyval) : list pyval := dedup_by uniq_eq [] vs.

(* df.drop(column) *)
Fixpoint remove_nth {A} (n : nat) (l : list A) : list A :=
  match l, n with
  | [], _ => []
  | _ :: t, O => t
  | x :: t, S k => x :: remove_nth k t
  end.

(** [df.drop(f, axis=1)]; KeyError if absent *)
(* df.drop(class_feat, axis=1), base_functions.py:750-770, irep.py:94-235 *)
Definition drop_col (fr : frame) (f : pyval) : res frame :=
  match col_pos (fcols fr) f with
  | None => Err KeyError
  | Some j => Ok (mkframe (remove_nth j (fcols fr))
                          (map (fun r => mkrow (rlab r) (remove_nth j (rcells r))) (frows fr)))
  end.

(** every row has one cell per column *)
(* every row has a cell for every column *)
Definition wf_frame (fr : frame) : Prop :=
  forall r, In r (frows fr) -> length (rcells r) = length (fcols fr).
(** column names are pairwise different *)
(* no column name occurs twice *)
Definition distinct_cols (cols : list pyval) : Prop :=
  forall i j a b, nth_error cols i = Some a -> nth_error cols j = Some b -> py_eq a b = true -> i = j.
(* no index label occurs twice *)
Definition distinct_labels (fr : frame) : Prop := NoDup (labels (frows fr)).
