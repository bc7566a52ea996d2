(** * AlgoSpec.v : IREP as it is published (Fuernkranz & Widmer 1994; Cohen 1995, section 2), as a relation on tables.
    Examples are row labels; [cov cs l] are the examples of [l] that the conditions [cs] cover. *)
From Verif Require Export LearnSpec ProbaSpec Irep.
From Coq Require Export Permutation.
Open Scope nat_scope.

(** [cov] computes coverage on the rows of table [x] *)
Definition coverage_of (x : frame) (cov : rule -> list nat -> list nat) : Prop :=
  forall r l, incl l (map rlab (frows x)) -> picks (covers_label x r) l (cov r l).

(** the limits max_rule_conds and min_rule_samples *)
Definition rule_limit (h : hyper) (cov : rule -> list nat -> list nat) (pos neg : list nat) (cs : list cond) : Prop :=
  (exists m, h_max_rule_conds h = Some m /\ (m <= Z.of_nat (length cs))%Z) \/
  (exists m, h_min_rule_samples h = Some m /\ (Z.of_nat (length (cov (Rule_ cs) neg) + length (cov (Rule_ cs) pos)) < m)%Z).
(** GrowRule: as long as the rule covers a negative example and no limit is reached, append the candidate of greatest FOIL gain, if that
    is positive. When a limit is reached and min_rule_samples is given, the last condition is taken back. *)
Inductive greedy (h : hyper) (cov : rule -> list nat -> list nat) (cand : list cond) (pos neg : list nat) : list cond -> list cond -> Prop :=
| greedy_done : forall cs, cov (Rule_ cs) neg = [] -> greedy h cov cand pos neg cs cs
| greedy_limit : forall cs, cov (Rule_ cs) neg <> [] -> rule_limit h cov pos neg cs -> h_min_rule_samples h = None -> greedy h cov cand pos neg cs cs
| greedy_limit_back : forall cs m, cov (Rule_ cs) neg <> [] -> rule_limit h cov pos neg cs -> h_min_rule_samples h = Some m -> greedy h cov cand pos neg cs (removelast cs)
| greedy_stuck : forall cs, cov (Rule_ cs) neg <> [] -> ~ rule_limit h cov pos neg cs -> no_gain cov cand (Rule_ cs) pos neg -> greedy h cov cand pos neg cs cs
| greedy_more : forall cs s ds, cov (Rule_ cs) neg <> [] -> ~ rule_limit h cov pos neg cs -> best_extension cov cand (Rule_ cs) pos neg s ->
    greedy h cov cand pos neg (conds s) ds -> greedy h cov cand pos neg cs ds.

(** PruneRule: the shortest prefix of greatest value (p + (N - n)) / (P + N) on the P + N examples kept for pruning *)
Definition prune_value (cov : rule -> list nat -> list nat) (pp np : list nat) (cs : list cond) : Q :=
  (qn (length (cov (Rule_ cs) pp) + (length np - length (cov (Rule_ cs) np))) / qn (length pp + length np))%Q.
Definition pruned_to (cov : rule -> list nat -> list nat) (pp np : list nat) (g b : list cond) : Prop :=
  (g = [] /\ b = []) \/ best_prefix (prune_value cov pp np) g b.
(** accepted if at least half of what it covers there is positive *)
Definition precise (cov : rule -> list nat -> list nat) (pp np : list nat) (b : list cond) : Prop :=
  0 < length (cov (Rule_ b) pp) /\ length (cov (Rule_ b) np) <= length (cov (Rule_ b) pp).

(** the random split: a part for growing, the rest for pruning *)
Definition split_for (e : env) (h : hyper) (l grow prune : list nat) : Prop :=
  Permutation (grow ++ prune) l /\ Z.of_nat (length grow) = e_split e (1 - h_prune h) (length l).
(** what is left of positives and negatives after the rules [a]; without pruning covered negatives stay in the game *)
Definition remaining (h : hyper) (x : frame) (pos neg : list nat) (a : list rule) (rp rn : list nat) : Prop :=
  picks (uncovered_label x a) pos rp /\ ((h_prune h == 0)%Q -> rn = neg) /\ (~ (h_prune h == 0)%Q -> picks (uncovered_label x a) neg rn).
(** the limits max_rules, max_total_conds and min_ruleset_samples, for the rules so far and the number of examples left *)
Definition total_conds (rs : list rule) : nat := list_sum (map (fun r => length (conds r)) rs).
Definition ruleset_limit (h : hyper) (rs : list rule) (left_over : nat) : Prop :=
  (exists m, h_max_rules h = Some m /\ (m <= Z.of_nat (length rs))%Z) \/
  (exists m, h_max_total_conds h = Some m /\ (m <= Z.of_nat (total_conds rs))%Z) \/
  (exists m, h_min_ruleset_samples h = Some m /\ (Z.of_nat left_over < m)%Z).

(** IREP: from the rules [a] learned so far to all rules learned in the end; [init]: the rules of the initial model *)
Inductive irep_run (e : env) (h : hyper) (x : frame) (cov : rule -> list nat -> list nat) (cand : list cond) (init : list rule) (pos neg : list nat)
  : list rule -> list rule -> Prop :=
| run_covered : forall a, picks (uncovered_label x a) pos [] -> irep_run e h x cov cand init pos neg a a
| run_limit : forall a rp rn, remaining h x pos neg a rp rn -> rp <> [] -> ruleset_limit h (init ++ a) (length rp + length rn) ->
    irep_run e h x cov cand init pos neg a a
| run_rejected : forall a rp rn pg pp ng np g b,
    remaining h x pos neg a rp rn -> rp <> [] -> ~ ruleset_limit h (init ++ a) (length rp + length rn) -> ~ (h_prune h == 0)%Q ->
    split_for e h rp pg pp -> split_for e h rn ng np -> greedy h cov cand pg ng [] g -> pruned_to cov pp np g b -> ~ precise cov pp np b ->
    irep_run e h x cov cand init pos neg a a
| run_accepted : forall a rp rn pg pp ng np g r fin,
    remaining h x pos neg a rp rn -> rp <> [] -> ~ ruleset_limit h (init ++ a) (length rp + length rn) -> ~ (h_prune h == 0)%Q ->
    split_for e h rp pg pp -> split_for e h rn ng np -> greedy h cov cand pg ng [] g -> pruned_to cov pp np g (conds r) -> precise cov pp np (conds r) ->
    irep_run e h x cov cand init pos neg (a ++ [r]) fin -> irep_run e h x cov cand init pos neg a fin
| run_unpruned : forall a rp rn pg ng r fin,
    remaining h x pos neg a rp rn -> rp <> [] -> ~ ruleset_limit h (init ++ a) (length rp + length rn) -> (h_prune h == 0)%Q ->
    Permutation pg rp -> Permutation ng rn -> greedy h cov cand pg ng [] (conds r) ->
    irep_run e h x cov cand init pos neg (a ++ [r]) fin -> irep_run e h x cov cand init pos neg a fin.

(** the conditions that rules are made of: with cn_optimize every feature=value of the table; without it the conditions the initial model
    was trained with, and every feature=value that occurs both in a positive and in a negative example *)
Definition occurs (x : frame) (l : list nat) (c : cond) : Prop :=
  In (cfeat c) (fcols x) /\ exists rw v, In rw (frows x) /\ In (rlab rw) l /\ value_at (fcols x) rw (cfeat c) v /\ py_eq v (cval c) = true.
Definition listed (cand : list cond) (c : cond) : Prop := exists d, In d cand /\ cfeat d = cfeat c /\ py_eq (cval d) (cval c) = true.
Definition candidates (cnopt : bool) (x : frame) (pos neg : list nat) (old cand : list cond) : Prop :=
  if cnopt then forall c, listed cand c <-> occurs x (map rlab (frows x)) c
  else exists fresh, cand = old ++ fresh /\ forall c, listed fresh c <-> occurs x pos c /\ occurs x neg c.

(** the labels of the positive and of the negative rows of a table with class column [f] *)
Definition examples_of_class (df : frame) (f pc : pyval) (pos neg : list nat) : Prop :=
  exists p n, picks (positive_row (fcols df) f pc) (frows df) p /\ picks (fun rw => ~ positive_row (fcols df) f pc rw) (frows df) n /\
    pos = map rlab p /\ neg = map rlab n.
(** max_total_conds at the end: whole rules are dropped from the end until it is respected *)
Definition trimmed_to (lim : option Z) (l k : list rule) : Prop :=
  Spec.prefix k l /\ (lim = None -> k = l) /\
  forall m, lim = Some m -> (k = [] \/ (Z.of_nat (total_conds k) <= m)%Z) /\
    forall k', Spec.prefix k' l -> (Z.of_nat (total_conds k') <= m)%Z -> length k' <= length k.
