(** * UsefulSpec.v : vocabulary for C87, C88 *)
From Verif Require Export LearnSpec ProbaSpec.

(** the row has a value for the feature of the condition, and it is another value *)
Definition misses (cols : list pyval) (rw : row) (c : cond) : Prop :=
  exists v, value_at cols rw (cfeat c) v /\ py_eq v (cval c) = false.

(** [rw] is a negative example of the table that the conditions [before] let through and that the condition [c] turns away *)
Definition turned_away (df : frame) (cf pc : pyval) (before : list cond) (c : cond) (rw : row) : Prop :=
  In rw (frows df) /\ ~ positive_row (fcols df) cf pc rw /\ sat_conds (fcols df) rw before /\ misses (fcols df) rw c.

(** every condition of the rule turns away a negative example that the conditions before it let through *)
Definition every_condition_works (df : frame) (cf pc : pyval) (r : rule) : Prop :=
  forall before c after, conds r = before ++ c :: after -> exists rw, turned_away df cf pc before c rw.

(** every rule of the list covers a positive example of the table that no rule before it covers *)
Definition every_rule_works (df : frame) (cf pc : pyval) (rs : list rule) : Prop :=
  forall before r after, rs = before ++ r :: after ->
    exists rw, In rw (frows df) /\ positive_row (fcols df) cf pc rw /\ sat_rule (fcols df) rw r /\
      forall s, In s before -> ~ sat_rule (fcols df) rw s.
