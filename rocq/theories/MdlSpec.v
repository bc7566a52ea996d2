(** * MdlSpec.v : vocabulary for RIPPER's use of description lengths. Specification only. *)
From Verif Require Export RipperSpec.
From Coq Require Import Reals.
Open Scope nat_scope.

(** [b] is the description length in bits of rules rs on the positives pos and the negatives neg of table x, n conditions being possible *)
Definition bits_on (x : frame) (n : nat) (pos neg : list nat) (rs : list rule) (b : R) : Prop :=
  exists tp fp, picks (covered_label x rs) pos tp /\ picks (covered_label x rs) neg fp /\
    b = ruleset_bits n (length pos) (length neg) (length tp) (length fp) rs.

(** with the rules u added to init, the description is more than [allow] bits longer than the shortest one met since the first addition *)
Definition too_long (bits : list rule -> R -> Prop) (allow : Z) (init u : list rule) : Prop :=
  exists w v b b', u = w ++ v /\ w <> [] /\ v <> [] /\ bits (init ++ u) b /\ bits (init ++ w) b' /\ (b' + IZR allow < b)%R.

(** rules rs with the one in slot j replaced by r *)
Definition with_slot (rs : list rule) (j : nat) (r : rule) : list rule := firstn j rs ++ [r] ++ skipn (S j) rs.

(** no rule occurs twice *)
Definition no_equal_rules (rs : list rule) : Prop := forall i j r s, i < j -> nth_error rs i = Some r -> nth_error rs j = Some s -> rule_eqb r s = false.

(** r' is grown from the conditions [base] on the grow part of a random split of the examples that no rule before slot j covers, then cut to a prefix *)
Definition regrown {E} (cov : rule -> list E -> list E) (cand : list cond) (pos neg : list E) (rs : list rule) (j : nat) (base : list cond) (r' : rule) : Prop :=
  exists rp rn pg pp ng np g ds,
    picks (fun i => forall s, In s (firstn j rs) -> ~ In i (cov s pos)) pos rp /\
    picks (fun i => forall s, In s (firstn j rs) -> ~ In i (cov s neg)) neg rn /\
    Permutation (pg ++ pp) rp /\ Permutation (ng ++ np) rn /\ pg <> [] /\
    prefix (conds g) (base ++ ds) /\ grown_by cov cand base ds pg ng /\
    prefix (conds r') (conds g) /\ (conds g <> [] -> conds r' <> []).
(** cost of putting o in slot j of rs, the rules as they are costing b0 *)
Definition slot_cost (bits : list rule -> R -> Prop) (rs : list rule) (j : nat) (r : rule) (b0 : R) (o : rule) (b : R) : Prop :=
  (rule_eqb o r = true /\ b = b0) \/ (rule_eqb o r = false /\ bits (with_slot rs j o) b).
(** the cheapest of three rules; the earlier one if equally cheap *)
Definition cheapest (r rep rev : rule) (b0 b1 b2 : R) (best : rule) : Prop :=
  (best = r /\ (b0 <= b1)%R /\ (b0 <= b2)%R) \/ (best = rep /\ (b1 < b0)%R /\ (b1 <= b2)%R) \/ (best = rev /\ (b2 < b0)%R /\ (b2 < b1)%R).
(** a limit on the ruleset's growth is reached, [left] training examples being uncovered *)
Definition limit_reached (h : hyper) (rs : list rule) (left : nat) : Prop :=
  (exists m, h_max_rules h = Some m /\ (m <= Z.of_nat (length rs))%Z) \/
  (exists m, h_max_total_conds h = Some m /\ (m <= Z.of_nat (count_conds rs))%Z) \/
  (exists m, h_min_ruleset_samples h = Some m /\ (Z.of_nat left < m)%Z).
