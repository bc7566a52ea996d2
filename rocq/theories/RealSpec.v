(** * RealSpec.v : FOIL gain and description lengths as real numbers, with logarithms, as the papers and the code write them.
    Specification only: nothing here mentions the model. *)
From Coq Require Import Reals.
Open Scope R_scope.

Definition log2 (x : R) : R := ln x / ln 2.

(** information gain of going from a rule covering p0 positives and n0 negatives to one covering p1 and n1 *)
Definition foil_gain (p0 n0 p1 n1 : nat) : R :=
  INR p1 * (log2 ((INR p1 + 1) / (INR p1 + INR n1 + 1)) - log2 ((INR p0 + 1) / (INR p0 + INR n0 + 1))).

(** bits for a rule with k conditions (1 <= k < n) out of n possible ones *)
Definition rule_bits (k n : nat) : R :=
  let pr := INR k / INR n in
  Rmax 1 (1 / 2 * (log2 (INR k) + (INR k * log2 (1 / pr) + (INR n - INR k) * log2 (1 / (1 - pr))))).
