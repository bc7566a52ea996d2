(** * ExamplesSpec.v : vocabulary for the examples rule_stats returns (C86) *)
From Coq Require Export Permutation.
From Verif Require Export ClfSpec.
Open Scope nat_scope.

(** the labels passed with the data, if any, row by row *)
Definition given_labels (fr : frame) (ys : option (list pyval)) : list (option pyval) :=
  match ys with None => map (fun _ => None) (frows fr) | Some l => map Some l end.
(** row [rd] of the table [ex] is row [rw] of [fr] as the rules see it: the same row label and, in every feature, the same value (or its bin);
    the class column holds the label passed for that row, or is absent if none was passed *)
Definition example_of (bt : bin_transformer) (cf : pyval) (fr ex : frame) (rv : row * option pyval) (rd : row) : Prop :=
  rlab rd = rlab (fst rv) /\
  (forall g w, usable fr cf g -> (value_at (fcols ex) rd g w <-> sees bt (fcols fr) (fst rv) g w)) /\
  match snd rv with Some v => value_at (fcols ex) rd cf v | None => ~ column_present ex cf end.
(** the rows on which the rule holds, with their labels *)
Definition examples_from (bt : bin_transformer) (fr : frame) (ys : option (list pyval)) (r : rule) (cov : list (row * option pyval)) : Prop :=
  picks (fun rv => holds bt (fcols fr) (fst rv) r) (combine (frows fr) (given_labels fr ys)) cov.
(** what is assumed of DataFrame.sample(n=k): k of the rows, no row twice *)
Definition sample_ok (w : world) : Prop :=
  forall k l, k <= length l -> length (w_sample w k l) = k /\ exists rest, Permutation l (w_sample w k l ++ rest).
