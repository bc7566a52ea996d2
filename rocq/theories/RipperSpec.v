(** * RipperSpec.v : vocabulary for the RIPPER properties. Specification only. *)
From Verif Require Export LearnSpec RealFacts.
From Coq Require Import Reals.
Open Scope nat_scope.

(** the row labelled i satisfies some rule *)
Definition covered_label (x : frame) (rs : list rule) (i : nat) : Prop := exists r, In r rs /\ covers_label x r i.

(** bits of a ruleset with n possible conditions that covers tp of P positives and fp of N negatives *)
Fixpoint theory_sum (n : nat) (rs : list rule) : R :=
  match rs with [] => 0%R | r :: t => (rule_bits (Nat.max (length (conds r)) 1) n + theory_sum n t)%R end.
Definition ruleset_bits (n P N tp fp : nat) (rs : list rule) : R :=
  (theory_sum n rs + (log2 (INR (binom (tp + fp) fp)) + log2 (INR (binom (P + N - (tp + fp)) (P - tp)))))%R.

(** accuracy of a rule with conditions b on positives pp and negatives np *)
Definition accuracy_on {E} (cov : rule -> list E -> list E) (pp np : list E) (b : list cond) : Q :=
  (qn (length (cov (Rule_ b) pp) + (length np - length (cov (Rule_ b) np))) / qn (length pp + length np))%Q.
