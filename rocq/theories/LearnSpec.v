(** * LearnSpec.v : vocabulary for the learning properties. [cov r l] stands for the examples of l that rule r covers. *)
From Verif Require Export Spec RealSpec.
From Coq Require Import Reals.
Open Scope nat_scope.

(** FOIL gain of appending condition c to rule r *)
Definition gain_by {E} (cov : rule -> list E -> list E) (r : rule) (c : cond) (pos neg : list E) : R :=
  let r1 := Rule_ (conds r ++ [c]) in
  foil_gain (length (cov r pos)) (length (cov r neg)) (length (cov r1 pos)) (length (cov r1 neg)).

(** [s] is r extended by the first candidate of maximal gain, and that gain is positive *)
Definition best_extension {E} (cov : rule -> list E -> list E) (cand : list cond) (r : rule) (pos neg : list E) (s : rule) : Prop :=
  exists a c b, cand = a ++ c :: b /\ s = Rule_ (conds r ++ [c]) /\ (0 < gain_by cov r c pos neg)%R /\
    (forall d, In d a -> (gain_by cov r d pos neg < gain_by cov r c pos neg)%R) /\
    (forall d, In d b -> (gain_by cov r d pos neg <= gain_by cov r c pos neg)%R).
Definition no_gain {E} (cov : rule -> list E -> list E) (cand : list cond) (r : rule) (pos neg : list E) : Prop :=
  forall d, In d cand -> (gain_by cov r d pos neg <= 0)%R.

(** each condition of ds, appended in turn to r0, is a candidate, is new, keeps a positive and excludes a negative *)
Definition grown_by {E} (cov : rule -> list E -> list E) (cand r0 ds : list cond) (pos neg : list E) : Prop :=
  forall a d b, ds = a ++ d :: b ->
    In d cand /\ (forall e, In e (r0 ++ a) -> cond_eqb e d = false) /\
    cov (Rule_ (r0 ++ a ++ [d])) pos <> [] /\
    length (cov (Rule_ (r0 ++ a ++ [d])) neg) < length (cov (Rule_ (r0 ++ a)) neg).

(** b is the best non-empty prefix of cs for value v; among equally good ones the shortest *)
Definition best_prefix (v : list cond -> Q) (cs b : list cond) : Prop :=
  prefix b cs /\ b <> [] /\ (0 <= v b)%Q /\
  forall p, prefix p cs -> p <> [] -> (v p <= v b)%Q /\ (length p < length b -> (v p < v b)%Q).

(** the row of table x with label i satisfies rule r *)
Definition covers_label (x : frame) (r : rule) (i : nat) : Prop := exists rw, In rw (frows x) /\ rlab rw = i /\ sat_rule (fcols x) rw r.
(** label i is covered by none of the rules *)
Definition uncovered_label (x : frame) (rs : list rule) (i : nat) : Prop := forall r, In r rs -> ~ covers_label x r i.
(** no missing values *)
Definition no_missing (x : frame) : Prop := forall rw v, In rw (frows x) -> In v (rcells rw) -> v <> PNaN.
(** on every column the two rows hold equal values *)
Definition same_features (x : frame) (a b : row) : Prop :=
  forall f v, value_at (fcols x) a f v -> exists w, value_at (fcols x) b f w /\ py_eq v w = true.
(** c is feature=value for a non-class column of the training table and a value occurring in it *)
Definition from_data (df : frame) (cf : pyval) (c : cond) : Prop :=
  In (cfeat c) (fcols df) /\ py_eq (cfeat c) cf = false /\ exists rw, In rw (frows df) /\ value_at (fcols df) rw (cfeat c) (cval c).
