(** * TallySpec.v : RIPPER with cn_optimize=False, as it is implemented, as a relation on tables. It differs from RipperAlgoSpec in four ways: an example that several
    rules cover is counted once for each of them; the alternatives of the optimisation are pruned, and their cost is measured, together with the other rules; the last
    stage sets the covered examples aside; and the conditions are those that occur both in a positive and in a negative example. Specification only. *)
From Verif Require Export RipperAlgoSpec.
From Coq Require Import Reals.
Open Scope nat_scope.

(** how many examples of [l] the rules cover, counting one once for each rule that covers it; a rule without conditions covers all *)
Definition tally_of (cov : rule -> list nat -> list nat) (rs : list rule) (l : list nat) : nat :=
  if existsb (fun r => length (conds r) =? 0) rs then length l else list_sum (map (fun r => length (cov r l)) rs).
(** description length with these counts. nCr n r is n (n-1) ... (n-r+1) / r!, which is 1 for r <= 0; the counts may exceed the numbers of examples. *)
Definition tally_bits (cov : rule -> list nat -> list nat) (n : nat) (pos neg : list nat) (rs : list rule) (b : R) : Prop :=
  let tp := Z.of_nat (tally_of cov rs pos) in let fp := Z.of_nat (tally_of cov rs neg) in
  b = (theory_sum n rs + (log2 (IZR (nCr (tp + fp) fp)) + log2 (IZR (nCr (Z.of_nat (length pos + length neg) - (tp + fp)) (Z.of_nat (length pos) - tp)))))%R.

(** pruning an alternative for slot [i]: the value is that of all rules together *)
Definition value_in (cov : rule -> list nat -> list nat) (orig : list rule) (i : nat) (pp np : list nat) (cs : list cond) : Q :=
  (inject_Z (Z.of_nat (tally_of cov (with_slot orig i (Rule_ cs)) pp) + (Z.of_nat (length np) - Z.of_nat (tally_of cov (with_slot orig i (Rule_ cs)) np))) / qn (length pp + length np))%Q.
Definition pruned_in (cov : rule -> list nat -> list nat) (orig : list rule) (i : nat) (pp np : list nat) (g b : list cond) : Prop :=
  (g = [] /\ b = []) \/ best_prefix (value_in cov orig i pp np) g b.
(** the cost of rules: the bits of those that are kept by description length *)
Definition kept_bits (bits : list rule -> R -> Prop) (rs : list rule) (b : R) : Prop := exists kept, kept_by_length bits rs kept /\ bits kept b.

Inductive tally_pass (e : env) (h : hyper) (x : frame) (cov : rule -> list nat -> list nat) (cand : list cond) (bits : list rule -> R -> Prop)
    (b0 : R) (orig : list rule) (pos neg : list nat) : nat -> list rule -> list rule -> Prop :=
| tally_end : forall now, tally_pass e h x cov cand bits b0 orig pos neg (length orig) now now
| tally_covered : forall i now, picks (uncovered_label x (firstn i orig)) pos [] -> tally_pass e h x cov cand bits b0 orig pos neg i now now
| tally_small : forall i now rp pp, picks (uncovered_label x (firstn i orig)) pos rp -> split_for e h rp [] pp -> tally_pass e h x cov cand bits b0 orig pos neg i now now
| tally_limit : forall i now rp rn, picks (uncovered_label x (firstn i orig)) pos rp -> picks (uncovered_label x (firstn i orig)) neg rn ->
    ruleset_limit h now (length rp + length rn) -> tally_pass e h x cov cand bits b0 orig pos neg i now now
| tally_slot : forall i now fin r rp rn pg pp ng np g1 g2 rep rev b1 b2 best, nth_error orig i = Some r ->
    picks (uncovered_label x (firstn i orig)) pos rp -> picks (uncovered_label x (firstn i orig)) neg rn -> ~ ruleset_limit h now (length rp + length rn) ->
    split_for e h rp pg pp -> split_for e h rn ng np -> pg <> [] ->
    greedy (without_max_conds h) cov cand pg ng [] g1 -> pruned_in cov orig i pp np g1 (conds rep) ->
    greedy (without_max_conds h) cov cand pg ng (conds r) g2 -> pruned_in cov orig i pp np g2 (conds rev) ->
    slot_cost (kept_bits bits) orig i r b0 rep b1 -> slot_cost (kept_bits bits) orig i r b0 rev b2 -> cheapest r rep rev b0 b1 b2 best ->
    tally_pass e h x cov cand bits b0 orig pos neg (S i) (with_slot now i (if existsb (fun s => rule_eqb s best) now then r else best)) fin ->
    tally_pass e h x cov cand bits b0 orig pos neg i now fin.
Definition one_tally_pass (e : env) (h : hyper) (x : frame) (cov : rule -> list nat -> list nat) (cand : list cond) (bits : list rule -> R -> Prop)
    (pos neg : list nat) (rs rs' : list rule) : Prop :=
  exists b0, kept_bits bits rs b0 /\ tally_pass e h x cov cand bits b0 rs pos neg 0 rs rs'.

(** the whole: build, optimise k times, build again from the examples that are not covered, if there is a positive one, and keep by description length. [old]: the conditions
    that the initial model was trained with. *)
Definition tally_run (e : env) (h : hyper) (x : frame) (cov : rule -> list nat -> list nat) (old : list cond) (init : list rule) (pos neg : list nat) (fin : list rule) : Prop :=
  exists cand new opt rp rn cand' more,
    candidates false x pos neg old cand /\
    build e h x cov cand (tally_bits cov (length cand) pos neg) init pos neg [] new /\
    passes (one_tally_pass e h x cov cand (tally_bits cov (length cand) pos neg) pos neg) (h_k h) (init ++ new) opt /\
    picks (uncovered_label x opt) pos rp /\ picks (uncovered_label x opt) neg rn /\
    ((rp = [] /\ more = [] /\ cand' = cand) \/
     (rp <> [] /\ candidates false x rp rn (if length opt =? 0 then [] else cand) cand' /\
      build e h x cov cand' (tally_bits cov (length cand') rp rn) opt rp rn [] more)) /\
    kept_by_length (tally_bits cov (length cand') pos neg) (opt ++ more) fin.
