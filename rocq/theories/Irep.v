(** * Irep.v : the IREP learner (irep.py) *)
From Verif Require Export Learn.

(** Hyperparameters after construction (abstract_ruleset_classifier.py:52-62; prune_size None is stored as 0).
    [h_k], [h_dl] are RIPPER's (ripper.py:97-98). Limits are integers, dl_allowance an integer number of bits. *)
Record hyper := mkhyper {
  h_prune : Q; h_nbins : option Z; h_max_rules : option Z; h_min_rule_samples : option Z; h_min_ruleset_samples : option Z;
  h_max_rule_conds : option Z; h_max_total_conds : option Z; h_alpha : Q; h_random_state : option Z; h_verbosity : nat;
  h_k : nat; h_dl : Z }.

(* irep.py:248-250, 350-352: prune_size None or 0 *)
Definition prune_off (h : hyper) : bool := Qeq_bool (h_prune h) 0.
(* irep.py:265-268, 367-373: 1 - prune_size *)
Definition grow_size (h : hyper) : Q := (1 - h_prune h)%Q.

(** irep.py:356-448, the loop of [_grow_ruleset_cn]; each iteration uses two shuffles (ticks t, t+1); returns the rules and the
    next tick *)
Fixpoint irep_loop_cn (fuel : nat) (e : env) (h : hyper) (cn : catnap) (t : nat) (rs : list rule) (pos neg : list nat)
  : res (list rule * nat) :=
  match fuel with
  | O => Err OutOfFuel
  | S k =>
      if length pos =? 0 then Ok (rs, t)
      else if stop_early (length rs) (count_conds rs) (length pos) (length neg)
                (h_max_rules h) (h_min_ruleset_samples h) (h_max_total_conds h) then Ok (rs, t)
      else
        let '(pos_grow, pos_prune) := random_split e t (grow_size h) pos in
        let '(neg_grow, neg_prune) := random_split e (S t) (grow_size h) neg in
        grown <- grow_rule_cn cn pos_grow neg_grow (h_max_rule_conds h) (h_min_rule_samples h) (Rule_ []) ;;
        if prune_off h then
          irep_loop_cn k e h cn (t + 2) (rs_add grown rs) (set_minus pos (cn_rule_covers cn grown pos)) neg
        else
          pruned <- prune_rule (fun r => irep_metric (length pos_prune) (length neg_prune)
                                  (length (cn_rule_covers cn r pos_prune)) (length (cn_rule_covers cn r neg_prune))) grown ;;
          match pruned with
          | None => Err AttributeError (* the metric never returns None *)
          | Some pruned =>
              if bad_precision (precision_of (length (cn_rule_covers cn pruned pos_prune))
                                             (length (cn_rule_covers cn pruned neg_prune)))
              then Ok (rs, t + 2)
              else let '(pos', neg') := rm_rule_covers_cn cn pruned pos neg in
                   irep_loop_cn k e h cn (t + 2) (rs_add pruned rs) pos' neg'
          end
  end.
(** irep.py:338-451 [_grow_ruleset_cn]; [init] is the deep-copied initial model's rules *)
Definition irep_grow_cn (e : env) (h : hyper) (cn : catnap) (t : nat) (init : list rule) (pos neg : list nat)
  : res (list rule * nat) :=
  irep_loop_cn (S (length pos)) e h cn t init pos neg.

(** irep.py:256-333, the loop of [_grow_ruleset] (cn_optimize=False) *)
Fixpoint irep_loop (fuel : nat) (e : env) (h : hyper) (cols : list pyval) (possible : list cond) (t : nat)
    (rs : list rule) (pos neg : list row) : res (list rule * nat) :=
  match fuel with
  | O => Err OutOfFuel
  | S k =>
      if length pos =? 0 then Ok (rs, t)
      else if stop_early (length rs) (count_conds rs) (length pos) (length neg)
                (h_max_rules h) (h_min_ruleset_samples h) (h_max_total_conds h) then Ok (rs, t)
      else
        let '(pos_grow, pos_prune) := df_shuffled_split e t (grow_size h) pos in
        let '(neg_grow, neg_prune) := df_shuffled_split e (S t) (grow_size h) neg in
        grown <- grow_rule cols possible pos_grow neg_grow (h_max_rule_conds h) (h_min_rule_samples h) (Rule_ []) ;;
        if prune_off h then
          irep_loop k e h cols possible (t + 2) (rs_add grown rs) (drop_labels pos (labels (rcov cols grown pos))) neg
        else
          pruned <- prune_rule (fun r => irep_metric (length pos_prune) (length neg_prune)
                                  (length (rcov cols r pos_prune)) (length (rcov cols r neg_prune))) grown ;;
          match pruned with
          | None => Err AttributeError
          | Some pruned =>
              if bad_precision (precision_of (length (rcov cols pruned pos_prune)) (length (rcov cols pruned neg_prune)))
              then Ok (rs, t + 2)
              else irep_loop k e h cols possible (t + 2) (rs_add pruned rs)
                     (drop_labels pos (labels (rcov cols pruned pos))) (drop_labels neg (labels (rcov cols pruned neg)))
          end
  end.
(** irep.py:237-336 [_grow_ruleset] *)
Definition irep_grow (e : env) (h : hyper) (cols : list pyval) (possible : list cond) (t : nat) (init : list rule)
    (pos neg : list row) : res (list rule * nat) :=
  irep_loop (S (length pos)) e h cols possible t init pos neg.

(** irep.py:179-210: from the preprocessed training frame to the grown ruleset. [old_possible] is the possible_conds attribute
    of the initial model (if any). [cnopt] is cn_optimize. *)
Definition irep_train (e : env) (h : hyper) (cnopt : bool) (df : frame) (cf pc : pyval) (init : ruleset) : res ruleset :=
  if cnopt then
    cn <- cn_make df cf ;;
    '(p, n) <- pos_neg_split df cf pc ;;
    '(rs, _) <- irep_grow_cn e h cn 0 (rs_rules init) (labels (frows p)) (labels (frows n)) ;;
    Ok (mkruleset rs (Some (cn_conds cn)) (rs_uncov init))
  else
    '(p, n) <- pos_neg_split df cf pc ;;
    p' <- drop_col p cf ;; n' <- drop_col n cf ;;
    let possible := update_possible_conds (set_order e)
                      (match rs_possible init with Some l => l | None => [] end) p' n' in
    '(rs, _) <- irep_grow e h (fcols p') possible 0 (rs_rules init) (frows p') (frows n') ;;
    Ok (mkruleset rs (Some possible) (rs_uncov init)).
