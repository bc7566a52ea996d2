(** * Spec.v : the vocabulary the property theorems are stated with.
    Nothing here is used by the model; everything is in terms of rows, columns, conditions and lists. *)
From Verif Require Export Rules.

(** [picks P l l'] : l' consists of exactly the elements of l that satisfy P, in their order *)
Inductive picks {A} (P : A -> Prop) : list A -> list A -> Prop :=
| picks_nil : picks P [] []
| picks_yes : forall a l l', P a -> picks P l l' -> picks P (a :: l) (a :: l')
| picks_no : forall a l l', ~ P a -> picks P l l' -> picks P (a :: l) l'.

(** l' is obtained from l by deleting elements *)
Inductive sublist {A} : list A -> list A -> Prop :=
| sublist_nil : sublist [] []
| sublist_keep : forall a l l', sublist l' l -> sublist (a :: l') (a :: l)
| sublist_drop : forall a l l', sublist l' l -> sublist l' (a :: l).

Definition prefix {A} (p l : list A) : Prop := exists s, l = p ++ s.

(** row [rw] of a frame with columns [cols] holds value [w] in the column called [f] *)
Definition value_at (cols : list pyval) (rw : row) (f w : pyval) : Prop :=
  exists j c, nth_error cols j = Some c /\ py_eq c f = true /\ nth_error (rcells rw) j = Some w.

(** the row satisfies a condition / all conditions of a rule / some rule of a ruleset *)
Definition sat_cond (cols : list pyval) (rw : row) (c : cond) : Prop :=
  exists w, value_at cols rw (cfeat c) w /\ py_eq w (cval c) = true.
Definition sat_conds (cols : list pyval) (rw : row) (cs : list cond) : Prop :=
  forall c, In c cs -> sat_cond cols rw c.
Definition sat_rule (cols : list pyval) (rw : row) (r : rule) : Prop := sat_conds cols rw (conds r).
Definition sat_ruleset (cols : list pyval) (rw : row) (rs : list rule) : Prop :=
  exists r, In r rs /\ sat_rule cols rw r.

(** the frame has a column called f *)
Definition column_present (fr : frame) (f : pyval) : Prop := exists c, In c (fcols fr) /\ py_eq c f = true.
Definition mentions (rs : list rule) (f : pyval) : Prop :=
  exists r c, In r rs /\ In c (conds r) /\ f = cfeat c.
Definition features_present (fr : frame) (rs : list rule) : Prop :=
  forall f, mentions rs f -> column_present fr f.

(** a table: every row has one cell per column and column names differ *)
Definition good_frame (fr : frame) : Prop := wf_frame fr /\ distinct_cols (fcols fr).

(** the same table with other index labels *)
Definition same_cells (fr fr' : frame) : Prop :=
  fcols fr = fcols fr' /\ map rcells (frows fr) = map rcells (frows fr').

(** two rows (of possibly different tables) with the same label and the same values for every feature the rules mention *)
Definition agree_on (rs : list rule) (cols cols' : list pyval) (rw rw' : row) : Prop :=
  rlab rw = rlab rw' /\ forall f w, mentions rs f -> (value_at cols rw f w <-> value_at cols' rw' f w).

(** [first_occurrences E seen l l'] : l' keeps exactly the elements of l that are not E-related to an earlier element
    (of [seen] or of l), in order *)
Inductive first_occurrences {A} (E : A -> A -> Prop) : list A -> list A -> list A -> Prop :=
| fo_nil : forall seen, first_occurrences E seen [] []
| fo_keep : forall seen a l l', (forall x, In x seen -> ~ E x a) ->
    first_occurrences E (seen ++ [a]) l l' -> first_occurrences E seen (a :: l) (a :: l')
| fo_skip : forall seen a l l', (exists x, In x seen /\ E x a) ->
    first_occurrences E (seen ++ [a]) l l' -> first_occurrences E seen (a :: l) l'.

(** a name / value that is text; the name has no "=" in it *)
Definition plain_cond (c : cond) : Prop :=
  exists f v, cfeat c = PStr f /\ cval c = PStr v /\ ~ In (ascii_of_nat 61) f.

(** conditions of the two lists that print alike are equal (same feature, same value) *)
Definition str_faithful (cs ds : list cond) : Prop :=
  forall c d, In c cs -> In d ds -> cond_str c = cond_str d ->
    py_eq (cfeat c) (cfeat d) = true /\ py_eq (cval c) (cval d) = true.

(** all conditions of a ruleset *)
Definition all_conds (rs : list rule) : list cond := flat_map conds rs.

(** x is the i-th element of rs *)
Definition at_pos (i : Z) (rs a : list rule) (x : rule) (b : list rule) : Prop := rs = a ++ x :: b /\ Z.of_nat (length a) = i.

(** x is the first rule of rs that is == old *)
Definition first_equal (old : rule) (rs a : list rule) (x : rule) (b : list rule) : Prop :=
  rs = a ++ x :: b /\ rule_eqb x old = true /\ forall y, In y a -> rule_eqb y old = false.

(** binomial coefficients by Pascal's rule *)
Fixpoint binom (n k : nat) : nat :=
  match n, k with
  | _, O => 1
  | O, S _ => 0
  | S n', S k' => binom n' k' + binom n' (S k')
  end.

(** confusion counts: positions whose actual label is [a] and whose prediction is [p] *)
Definition tally (a p : bool) (actuals preds : list bool) : nat :=
  length (filter (fun x => Bool.eqb (fst x) a && Bool.eqb (snd x) p) (combine actuals preds)).
