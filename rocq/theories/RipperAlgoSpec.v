(** * RipperAlgoSpec.v : RIPPER as it is implemented (Cohen 1995, section 3; the departures are marked), as a relation on tables. Vocabulary of
    AlgoSpec: examples are row labels; [cov cs l] are the examples of [l] that the conditions [cs] cover; [bits rs b]: rules [rs] are described in [b] bits. *)
From Verif Require Export AlgoSpec MdlSpec.
From Coq Require Import Reals.
Open Scope nat_scope.

(** the conditions that rules are made of: each feature=value of the table once *)
Definition held (x : frame) (c : cond) : Prop :=
  In (cfeat c) (fcols x) /\ exists rw, In rw (frows x) /\ value_at (fcols x) rw (cfeat c) (cval c).
Definition same_condition (c d : cond) : Prop := cfeat c = cfeat d /\ (py_eq (cval c) (cval d) = true \/ cval c = PNaN /\ cval d = PNaN).
Definition conditions_of (x : frame) (cand : list cond) : Prop :=
  (forall c, In c cand -> held x c) /\ (forall c, held x c -> exists d, In d cand /\ same_condition d c) /\
  ForallOrdPairs (fun c d => ~ same_condition c d) cand.

(** PruneRule, when a rule is added: the shortest prefix of greatest worth (p - n + 1) / (p + n + 1) on the examples kept for pruning;
    the rule stays whole if all its prefixes are worth less than 0 *)
Definition worth (cov : rule -> list nat -> list nat) (pp np : list nat) (cs : list cond) : Q :=
  ((qn (length (cov (Rule_ cs) pp) + 1) - qn (length (cov (Rule_ cs) np))) / qn (length (cov (Rule_ cs) pp) + length (cov (Rule_ cs) np) + 1))%Q.
Definition worth_pruned (cov : rule -> list nat -> list nat) (pp np : list nat) (g b : list cond) : Prop :=
  best_prefix (worth cov pp np) g b \/ (b = g /\ forall p, Spec.prefix p g -> p <> [] -> (worth cov pp np p < 0)%Q).

(** Building. From the rules [a] added so far to [init], to all rules added in the end. A rule is added unless all positives are covered by the added
    rules, the description has become too long, a limit is reached, or no rule can be grown. *)
Inductive build (e : env) (h : hyper) (x : frame) (cov : rule -> list nat -> list nat) (cand : list cond) (bits : list rule -> R -> Prop)
    (init : list rule) (pos neg : list nat) : list rule -> list rule -> Prop :=
| build_covered : forall a, picks (uncovered_label x a) pos [] -> build e h x cov cand bits init pos neg a a
| build_too_long : forall a, too_long bits (h_dl h) init a -> build e h x cov cand bits init pos neg a a
| build_limit : forall a rp rn, picks (uncovered_label x a) pos rp -> picks (uncovered_label x a) neg rn -> ruleset_limit h (init ++ a) (length rp + length rn) ->
    build e h x cov cand bits init pos neg a a
| build_nothing : forall a rp rn pg pp ng np, picks (uncovered_label x a) pos rp -> picks (uncovered_label x a) neg rn -> rp <> [] ->
    split_for e h rp pg pp -> split_for e h rn ng np -> pg = [] \/ greedy h cov cand pg ng [] [] ->
    build e h x cov cand bits init pos neg a a
| build_add : forall a rp rn pg pp ng np g r fin, picks (uncovered_label x a) pos rp -> picks (uncovered_label x a) neg rn -> rp <> [] ->
    ~ too_long bits (h_dl h) init a -> ~ ruleset_limit h (init ++ a) (length rp + length rn) ->
    split_for e h rp pg pp -> split_for e h rn ng np -> pg <> [] -> greedy h cov cand pg ng [] g -> g <> [] -> worth_pruned cov pp np g (conds r) ->
    build e h x cov cand bits init pos neg (a ++ [r]) fin -> build e h x cov cand bits init pos neg a fin.

(** The rules kept by description length: the first one, and each later one exactly if the rules up to it are described in no more bits than
    the rules before it (Cohen deletes rules one at a time as long as that shortens the description) *)
Definition kept_by_length (bits : list rule -> R -> Prop) (rs kept : list rule) : Prop :=
  exists idx, picks (fun i => i = 0 \/ exists b b', bits (firstn i rs) b /\ bits (firstn (S i) rs) b' /\ (b' <= b)%R) (seq 0 (length rs)) idx /\
    map Some kept = map (nth_error rs) idx.

(** Optimisation, one pass over the slots of [orig] from slot [i] on, [now] being the rules with the slots before [i] done; [b0] the bits that
    an alternative must undercut. Alternatives are grown on the examples that the original rules before the slot do not cover, without the limit max_rule_conds (the
    implementation does not pass it). The pass ends early if those rules cover all positives, if the growing part has no positive, or if a limit is reached. *)
Definition without_max_conds (h : hyper) : hyper :=
  mkhyper (h_prune h) (h_nbins h) (h_max_rules h) (h_min_rule_samples h) (h_min_ruleset_samples h) None (h_max_total_conds h) (h_alpha h) (h_random_state h) (h_verbosity h) (h_k h) (h_dl h).
Inductive pass (e : env) (h : hyper) (x : frame) (cov : rule -> list nat -> list nat) (cand : list cond) (bits : list rule -> R -> Prop)
    (b0 : R) (orig : list rule) (pos neg : list nat) : nat -> list rule -> list rule -> Prop :=
| pass_end : forall now, pass e h x cov cand bits b0 orig pos neg (length orig) now now
| pass_covered : forall i now, picks (uncovered_label x (firstn i orig)) pos [] -> pass e h x cov cand bits b0 orig pos neg i now now
| pass_small : forall i now rp pp, picks (uncovered_label x (firstn i orig)) pos rp -> split_for e h rp [] pp -> pass e h x cov cand bits b0 orig pos neg i now now
| pass_limit : forall i now rp rn, picks (uncovered_label x (firstn i orig)) pos rp -> picks (uncovered_label x (firstn i orig)) neg rn ->
    ruleset_limit h now (length rp + length rn) -> pass e h x cov cand bits b0 orig pos neg i now now
| pass_slot : forall i now fin r rp rn pg pp ng np g1 g2 rep rev b1 b2 best, nth_error orig i = Some r ->
    picks (uncovered_label x (firstn i orig)) pos rp -> picks (uncovered_label x (firstn i orig)) neg rn -> ~ ruleset_limit h now (length rp + length rn) ->
    split_for e h rp pg pp -> split_for e h rn ng np -> pg <> [] ->
    greedy (without_max_conds h) cov cand pg ng [] g1 -> pruned_to cov pp np g1 (conds rep) ->
    greedy (without_max_conds h) cov cand pg ng (conds r) g2 -> pruned_to cov pp np g2 (conds rev) ->
    slot_cost bits orig i r b0 rep b1 -> slot_cost bits orig i r b0 rev b2 -> cheapest r rep rev b0 b1 b2 best ->
    pass e h x cov cand bits b0 orig pos neg (S i) (with_slot now i (if existsb (fun s => rule_eqb s best) now then r else best)) fin ->
    pass e h x cov cand bits b0 orig pos neg i now fin.
Definition one_pass (e : env) (h : hyper) (x : frame) (cov : rule -> list nat -> list nat) (cand : list cond) (bits : list rule -> R -> Prop)
    (pos neg : list nat) (rs rs' : list rule) : Prop :=
  exists kept b0, kept_by_length bits rs kept /\ bits kept b0 /\ pass e h x cov cand bits b0 rs pos neg 0 rs rs'.

(** k passes; a pass, other than the last, that leaves an equal rule set ends the optimisation *)
Definition equal_rulesets (a b : list rule) : Prop :=
  (forall r, In r a -> exists s, In s b /\ rule_eqb s r = true) /\ (forall r, In r b -> exists s, In s a /\ rule_eqb s r = true).
Inductive passes (step : list rule -> list rule -> Prop) : nat -> list rule -> list rule -> Prop :=
| passes_none : forall rs, passes step 0 rs rs
| passes_settled : forall k rs rs', step rs rs' -> equal_rulesets rs rs' -> passes step (S (S k)) rs rs
| passes_go_on : forall k rs rs' fin, step rs rs' -> k = 0 \/ ~ equal_rulesets rs rs' -> passes step k rs' fin -> passes step (S k) rs fin.

(** the whole: build, optimise k times, build again (the implementation does not set aside the positives that are already covered), keep by description length *)
Definition ripper_run (e : env) (h : hyper) (x : frame) (cov : rule -> list nat -> list nat) (cand : list cond) (init : list rule) (pos neg : list nat) (fin : list rule) : Prop :=
  let bits := bits_on x (length cand) pos neg in
  exists new opt more, build e h x cov cand bits init pos neg [] new /\
    passes (one_pass e h x cov cand bits pos neg) (h_k h) (init ++ new) opt /\
    build e h x cov cand bits opt pos neg [] more /\ kept_by_length bits (opt ++ more) fin.
