(** * ProbaSpec.v : what the stored class statistics and the probabilities should be (vocabulary for C40-C44) *)
From Verif Require Export Spec Proba.

(** the row's class value equals the positive class *)
Definition positive_row (cols : list pyval) (cf pc : pyval) (rw : row) : Prop :=
  exists w, value_at cols rw cf w /\ py_eq w pc = true.

(** [s] are the statistics (negative count, positive count), frequencies and smoothed frequencies of the given rows *)
Definition stats_of_rows (alpha : Q) (cols : list pyval) (cf pc : pyval) (rows : list row) (s : stats) : Prop :=
  exists pos neg : list row,
    picks (positive_row cols cf pc) rows pos /\ picks (fun rw => ~ positive_row cols cf pc rw) rows neg /\
    st_ns s = (length neg, length pos) /\
    (rows = [] -> st_freqs s = (0, 0)%Q) /\
    (rows <> [] -> fst (st_freqs s) == qn (length neg) / qn (length rows) /\
                   snd (st_freqs s) == qn (length pos) / qn (length rows))%Q /\
    (fst (st_smooth s) == (qn (length neg) + alpha) / (qn (length rows) + 2 * alpha))%Q /\
    (snd (st_smooth s) == (qn (length pos) + alpha) / (qn (length rows) + 2 * alpha))%Q.

(** a pair of probabilities strictly between 0 and 1 that sum to 1 *)
Definition probabilities (p : Q * Q) : Prop :=
  (0 < fst p /\ fst p < 1 /\ 0 < snd p /\ snd p < 1 /\ fst p + snd p == 1)%Q.

(** every rule, and the ruleset itself for uncovered rows, carries statistics whose smoothed frequencies are probabilities *)
Definition calibrated (rs : ruleset) : Prop :=
  (exists s, rs_uncov rs = Some s /\ probabilities (st_smooth s)) /\
  forall r, In r (rs_rules rs) -> exists s, rstats r = Some s /\ probabilities (st_smooth s).

(** [m] is the arithmetic mean of the pairs [l] *)
Definition mean_of (l : list (Q * Q)) (m : Q * Q) : Prop :=
  l <> [] /\
  (fst m * qn (length l) == fold_right (fun p s => fst p + s) 0 l)%Q /\
  (snd m * qn (length l) == fold_right (fun p s => snd p + s) 0 l)%Q.

Definition eq_pair (p q : Q * Q) : Prop := (fst p == fst q /\ snd p == snd q)%Q.
