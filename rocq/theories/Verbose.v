(** * Verbose.v : what printing can do to a fit (verbosity >= 1).
    Every function of Learn.v, Irep.v, Ripper.v that prints is repeated here with its prints. Text itself is not modelled; what is
    modelled is whether composing the text raises. All prints of names, lengths, rules and rulesets compose [str] and [len] of
    existing objects and cannot raise; the numbers printed go through [rnd], which can. *)
From Verif Require Export Classifier.

(** a number handed to [rnd] *)
(* a number passed to rnd, utils.py:52-71 *)
Inductive shown_number := NoNumber (* None *) | Infinite | Finite.
(** utils.py:52-71 [rnd]: [None < 1] is a TypeError; [int(inf)] is an OverflowError *)
Definition rnd (x : shown_number) : res unit :=
  match x with NoNumber => Err TypeError | Infinite => Err OverflowError | Finite => Ok tt end.
(** [if verbosity >= level: print(... rnd(x) ...)] *)
(* printing that may raise, utils.py:52-71 *)
Definition say (v level : nat) (x : shown_number) : res unit := if level <=? v then rnd x else Ok tt.

(** base_functions.py:607-623 [best_rule_successor_cn] with its print (621-622): best_gain is still -inf if there is no condition *)
Definition best_rule_successor_cn_v (v : nat) (cn : catnap) (r : rule) (pos neg : list nat) : res (option rule) :=
  let rpos := cn_rule_covers cn r pos in
  let rneg := cn_rule_covers cn r neg in
  let best := best_scan (fun c => gain_cn cn c rpos rneg) None (cn_conds cn) in
  _ <- say v 5 (match best with None => Infinite | Some _ => Finite end) ;;
  Ok (match best with
      | Some (c, g) => if Qlt_b 1 g then Some (Rule_ (conds r ++ [c])) else None
      | None => None
      end).
(** base_functions.py:591-604 [best_successor] with its print (602-603): best_gain is at least 0 *)
Definition best_successor_v (v : nat) (cols : list pyval) (r : rule) (possible : list cond) (pos neg : list row) : res (option rule) :=
  let best := best_successor cols r possible pos neg in
  _ <- say v 5 Finite ;; Ok best.

(** base_functions.py:86-101, the loop of [grow_rule_cn]; one unit of fuel per iteration *)
Fixpoint grow_loop_cn_v (v : nat) (fuel : nat) (cn : catnap) (pos neg : list nat) (max_rule_conds min_rule_samples : option Z) (r : rule)
  : res rule :=
  match fuel with
  | O => Err OutOfFuel
  | S k =>
      let nneg := length (cn_rule_covers cn r neg) in
      if nneg =? 0 then Ok r
      else if user_halt (length (conds r)) nneg (length (cn_rule_covers cn r pos)) max_rule_conds min_rule_samples
      then Ok (halted_rule min_rule_samples r)
      else best <- best_rule_successor_cn_v v cn r pos neg ;;
           match best with
           | None => Ok r
           | Some r1 => grow_loop_cn_v v k cn pos neg max_rule_conds min_rule_samples r1
           end
  end.
(** base_functions.py:70-112 [grow_rule_cn] *)
Definition grow_rule_cn_v (v : nat) (cn : catnap) (pos neg : list nat) (max_rule_conds min_rule_samples : option Z) (initial : rule)
  : res rule :=
  grow_loop_cn_v v (S (length neg)) cn pos neg max_rule_conds min_rule_samples initial.

(** base_functions.py:41-57, the loop of [grow_rule] *)
Fixpoint grow_loop_v (v : nat) (fuel : nat) (cols : list pyval) (possible : list cond) (pos neg : list row)
    (max_rule_conds min_rule_samples : option Z) (r : rule) : res rule :=
  match fuel with
  | O => Err OutOfFuel
  | S k =>
      let nneg := length (rcov cols r neg) in
      if nneg =? 0 then Ok r
      else if user_halt (length (conds r)) nneg (length (rcov cols r pos)) max_rule_conds min_rule_samples
      then Ok (halted_rule min_rule_samples r)
      else best <- best_successor_v v cols r possible pos neg ;;
           match best with
           | None => Ok r
           | Some r1 => grow_loop_v v k cols possible pos neg max_rule_conds min_rule_samples r1
           end
  end.
(** base_functions.py:25-68 [grow_rule] *)
Definition grow_rule_v (v : nat) (cols : list pyval) (possible : list cond) (pos neg : list row)
    (max_rule_conds min_rule_samples : option Z) (initial : rule) : res rule :=
  grow_loop_v v (S (length neg)) cols possible pos neg max_rule_conds min_rule_samples initial.

(** base_functions.py:149-172 / 233-256: test the rule with its first n, n-1, ..., 1 conditions; a value >= the best so far
    (starting from 0) becomes the new best (it is printed first, lines 158-159 / 242-243); a None value aborts with None. [cur] (the rule with n conditions) is what
    [current_rule] is after popping. *)
Fixpoint prune_loop_v (v : nat) (metric : rule -> res (option Q)) (r : rule) (n : nat) (best_v : Q) (best : option rule)
  : res (option (option rule)) :=
  match n with
  | O => Ok (Some best)
  | S m =>
      let cur := set_conds r (firstn n (conds r)) in
      x <- metric cur ;;
      _ <- say v 5 (match x with None => NoNumber | Some _ => Finite end) ;;
      match x with
      | None => Ok None
      | Some x => if Qle_bool best_v x then prune_loop_v v metric r m x (Some cur)
                  else prune_loop_v v metric r m best_v best
      end
  end.
(** base_functions.py:142-172 / 226-256 [prune_rule], [prune_rule_cn] without eval_index_on_ruleset; [Ok None] is Python's None *)
Definition prune_rule_v (v : nat) (metric : rule -> res (option Q)) (r : rule) : res (option rule) :=
  if rule_isempty r then Ok (Some r)
  else x <- prune_loop_v v metric r (length (conds r)) 0 (Some r) ;;
       match x with
       | None => Ok None
       | Some best => Ok best
       end.
(** base_functions.py:174-201 / 258-285 with eval_index_on_ruleset=(i, ruleset): best_rule is unbound until a value >= 0 is seen *)
Definition prune_rule_on_v (v : nat) (metric : rule -> res (option Q)) (i : nat) (rs : list rule) (r : rule) : res (option rule) :=
  if rule_isempty r then Ok (Some r)
  else match nth_error rs i with
       | None => Err IndexError
       | Some x =>
           if negb (rule_eqb x r) then Err ValueError
           else y <- prune_loop_v v metric r (length (conds r)) 0 None ;;
                match y with
                | None => Ok None
                | Some None => Err UnboundLocalError
                | Some (Some b) => Ok (Some b)
                end
       end.

(** ** IREP *)

(** irep.py:356-448, the loop of [_grow_ruleset_cn]; each iteration uses two shuffles (ticks t, t+1); returns the rules and the
    next tick *)
Fixpoint irep_loop_cn_v (fuel : nat) (e : env) (h : hyper) (cn : catnap) (t : nat) (rs : list rule) (pos neg : list nat)
  : res (list rule * nat) :=
  match fuel with
  | O => Err OutOfFuel
  | S k =>
      if length pos =? 0 then Ok (rs, t)
      else if stop_early (length rs) (count_conds rs) (length pos) (length neg)
                (h_max_rules h) (h_min_ruleset_samples h) (h_max_total_conds h) then Ok (rs, t)
      else
        let '(pos_grow, pos_prune) := random_split e t (grow_size h) pos in
        let '(neg_grow, neg_prune) := random_split e (S t) (grow_size h) neg in
        grown <- grow_rule_cn_v (h_verbosity h) cn pos_grow neg_grow (h_max_rule_conds h) (h_min_rule_samples h) (Rule_ []) ;;
        if prune_off h then
          irep_loop_cn_v k e h cn (t + 2) (rs_add grown rs) (set_minus pos (cn_rule_covers cn grown pos)) neg
        else
          pruned <- prune_rule_v (h_verbosity h) (fun r => irep_metric (length pos_prune) (length neg_prune)
                                  (length (cn_rule_covers cn r pos_prune)) (length (cn_rule_covers cn r neg_prune))) grown ;;
          match pruned with
          | None => Err AttributeError (* the metric never returns None *)
          | Some pruned =>
              if bad_precision (precision_of (length (cn_rule_covers cn pruned pos_prune))
                                             (length (cn_rule_covers cn pruned neg_prune)))
              then Ok (rs, t + 2)
              else let '(pos', neg') := rm_rule_covers_cn cn pruned pos neg in
                   irep_loop_cn_v k e h cn (t + 2) (rs_add pruned rs) pos' neg'
          end
  end.
(** irep.py:338-451 [_grow_ruleset_cn]; [init] is the deep-copied initial model's rules *)
Definition irep_grow_cn_v (e : env) (h : hyper) (cn : catnap) (t : nat) (init : list rule) (pos neg : list nat)
  : res (list rule * nat) :=
  irep_loop_cn_v (S (length pos)) e h cn t init pos neg.

(** irep.py:256-333, the loop of [_grow_ruleset] (cn_optimize=False) *)
Fixpoint irep_loop_v (fuel : nat) (e : env) (h : hyper) (cols : list pyval) (possible : list cond) (t : nat)
    (rs : list rule) (pos neg : list row) : res (list rule * nat) :=
  match fuel with
  | O => Err OutOfFuel
  | S k =>
      if length pos =? 0 then Ok (rs, t)
      else if stop_early (length rs) (count_conds rs) (length pos) (length neg)
                (h_max_rules h) (h_min_ruleset_samples h) (h_max_total_conds h) then Ok (rs, t)
      else
        let '(pos_grow, pos_prune) := df_shuffled_split e t (grow_size h) pos in
        let '(neg_grow, neg_prune) := df_shuffled_split e (S t) (grow_size h) neg in
        grown <- grow_rule_v (h_verbosity h) cols possible pos_grow neg_grow (h_max_rule_conds h) (h_min_rule_samples h) (Rule_ []) ;;
        if prune_off h then
          irep_loop_v k e h cols possible (t + 2) (rs_add grown rs) (drop_labels pos (labels (rcov cols grown pos))) neg
        else
          pruned <- prune_rule_v (h_verbosity h) (fun r => irep_metric (length pos_prune) (length neg_prune)
                                  (length (rcov cols r pos_prune)) (length (rcov cols r neg_prune))) grown ;;
          match pruned with
          | None => Err AttributeError
          | Some pruned =>
              if bad_precision (precision_of (length (rcov cols pruned pos_prune)) (length (rcov cols pruned neg_prune)))
              then Ok (rs, t + 2)
              else irep_loop_v k e h cols possible (t + 2) (rs_add pruned rs)
                     (drop_labels pos (labels (rcov cols pruned pos))) (drop_labels neg (labels (rcov cols pruned neg)))
          end
  end.
(** irep.py:237-336 [_grow_ruleset] *)
Definition irep_grow_v (e : env) (h : hyper) (cols : list pyval) (possible : list cond) (t : nat) (init : list rule)
    (pos neg : list row) : res (list rule * nat) :=
  irep_loop_v (S (length pos)) e h cols possible t init pos neg.

(** irep.py:179-210: from the preprocessed training frame to the grown ruleset. [old_possible] is the possible_conds attribute
    of the initial model (if any). [cnopt] is cn_optimize. *)
Definition irep_train_v (e : env) (h : hyper) (cnopt : bool) (df : frame) (cf pc : pyval) (init : ruleset) : res ruleset :=
  if cnopt then
    cn <- cn_make df cf ;;
    '(p, n) <- pos_neg_split df cf pc ;;
    '(rs, _) <- irep_grow_cn_v e h cn 0 (rs_rules init) (labels (frows p)) (labels (frows n)) ;;
    Ok (mkruleset rs (Some (cn_conds cn)) (rs_uncov init))
  else
    '(p, n) <- pos_neg_split df cf pc ;;
    p' <- drop_col p cf ;; n' <- drop_col n cf ;;
    let possible := update_possible_conds (set_order e)
                      (match rs_possible init with Some l => l | None => [] end) p' n' in
    '(rs, _) <- irep_grow_v e h (fcols p') possible 0 (rs_rules init) (frows p') (frows n') ;;
    Ok (mkruleset rs (Some possible) (rs_uncov init)).

(** ** RIPPER. Description lengths are finite numbers (sums of logarithms of positive integers and rationals), so printing them
    (everywhere in ripper.py:1240-1518 from verbosity 3 on) cannot raise; those prints are written here only where a loop makes them. *)

(** ripper.py:587-694, the loop of [_grow_ruleset_cn]. [pos0], [neg0]: the full index sets used for the exceptions *)
Fixpoint ripper_loop_cn_v (fuel : nat) (e : env) (h : hyper) (cn : catnap) (pos0 neg0 : list nat) (t : nat) (rs : list rule)
    (st : option (Q * Q)) (diff : Q) (pos neg : list nat) : res (list rule * nat) :=
  match fuel with
  | O => Err OutOfFuel
  | S k =>
      if (length pos =? 0) || negb (within_allowance diff (h_dl h)) then Ok (rs, t)
      else if stop_early (length rs) (count_conds rs) (length pos) (length neg)
                (h_max_rules h) (h_min_ruleset_samples h) (h_max_total_conds h) then Ok (rs, t)
      else
        let '(pos_grow, pos_prune) := random_split e t (grow_size h) pos in
        let '(neg_grow, neg_prune) := random_split e (S t) (grow_size h) neg in
        if length pos_grow =? 0 then Ok (rs, t + 2)
        else
          grown <- grow_rule_cn_v (h_verbosity h) cn pos_grow neg_grow (h_max_rule_conds h) (h_min_rule_samples h) (Rule_ []) ;;
          if rule_isempty grown then Ok (rs, t + 2)
          else
            pruned <- (if prune_off h then Ok (Some grown)
                       else prune_rule_v (h_verbosity h) (fun r => ripper_grow_metric (length (cn_rule_covers cn r pos_prune))
                                                                    (length (cn_rule_covers cn r neg_prune))) grown) ;;
            match pruned with
            | None => Err AttributeError (* the metric never returns None *)
            | Some pruned =>
                let rs' := rs_add pruned rs in
                '(st', diff') <- dl_update (fun x => exceptions_cn cn x pos0 neg0) (length (cn_conds cn)) pruned rs' st diff ;;
                _ <- say (h_verbosity h) 3 Finite ;; (* ripper.py:530-542 / 669-681: description lengths *)
                let '(pos', neg') := rm_rule_covers_cn cn pruned pos neg in
                ripper_loop_cn_v k e h cn pos0 neg0 (t + 2) rs' st' diff' pos' neg'
            end
  end.
(** ripper.py:559-696 [_grow_ruleset_cn] *)
Definition ripper_grow_cn_v (e : env) (h : hyper) (cn : catnap) (t : nat) (init : list rule) (pos neg : list nat)
  : res (list rule * nat) :=
  ripper_loop_cn_v (S (length pos)) e h cn pos neg t init None 1 pos neg.

(** ripper.py:456-555, the loop of [_grow_ruleset]. Note: pruning happens even when prune_size is 0. *)
Fixpoint ripper_loop_v (fuel : nat) (e : env) (h : hyper) (cols : list pyval) (possible : list cond) (pos0 neg0 : list row)
    (t : nat) (rs : list rule) (st : option (Q * Q)) (diff : Q) (pos neg : list row) : res (list rule * nat) :=
  match fuel with
  | O => Err OutOfFuel
  | S k =>
      if (length pos =? 0) || negb (within_allowance diff (h_dl h)) then Ok (rs, t)
      else if stop_early (length rs) (count_conds rs) (length pos) (length neg)
                (h_max_rules h) (h_min_ruleset_samples h) (h_max_total_conds h) then Ok (rs, t)
      else
        let '(pos_grow, pos_prune) := df_shuffled_split e t (grow_size h) pos in
        let '(neg_grow, neg_prune) := df_shuffled_split e (S t) (grow_size h) neg in
        if length pos_grow =? 0 then Ok (rs, t + 2)
        else
          grown <- grow_rule_v (h_verbosity h) cols possible pos_grow neg_grow (h_max_rule_conds h) (h_min_rule_samples h) (Rule_ []) ;;
          if rule_isempty grown then Ok (rs, t + 2)
          else
            pruned <- prune_rule_v (h_verbosity h) (fun r => ripper_grow_metric (length (rcov cols r pos_prune))
                                                              (length (rcov cols r neg_prune))) grown ;;
            match pruned with
            | None => Err AttributeError
            | Some pruned =>
                let rs' := rs_add pruned rs in
                '(st', diff') <- dl_update (fun x => exceptions_df cols x pos0 neg0) (length possible) pruned rs' st diff ;;
                _ <- say (h_verbosity h) 3 Finite ;; (* ripper.py:530-542 / 669-681: description lengths *)
                ripper_loop_v k e h cols possible pos0 neg0 (t + 2) rs' st' diff'
                  (drop_labels pos (labels (rcov cols pruned pos))) (drop_labels neg (labels (rcov cols pruned neg)))
            end
  end.
(** ripper.py:428-557 [_grow_ruleset] *)
Definition ripper_grow_v (e : env) (h : hyper) (cols : list pyval) (possible : list cond) (t : nat) (init : list rule)
    (pos neg : list row) : res (list rule * nat) :=
  ripper_loop_v (S (length pos)) e h cols possible pos neg t init None 1 pos neg.

(** ripper.py:930-1099, the loop of [_optimize_ruleset_cn]. [todo]: the remaining original rules with their positions.
    max_rule_conds is NOT passed by fit (ripper.py:278-285), so growing is unlimited here. *)
Fixpoint optimize_loop_cn_v (e : env) (h : hyper) (cn : catnap) (orig : list rule) (orig_dl : Q) (pos0 neg0 : list nat)
    (t i : nat) (todo : list rule) (new : list (option rule)) (pos neg : list nat) : res (list (option rule) * nat) :=
  match todo with
  | [] => Ok (new, t)
  | r :: rest =>
      let '(pos_grow, pos_prune) := random_split e t (grow_size h) pos in
      let '(neg_grow, neg_prune) := random_split e (S t) (grow_size h) neg in
      if length pos_grow =? 0 then Ok (new, t + 2)
      else
        stop <- stop_early_opt h new (length pos) (length neg) ;;
        if stop : bool then Ok (new, t + 2)
        else
          let metric := fun x => accuracy_metric (length pos_prune) (length neg_prune)
                                   (length (cn_rule_covers cn x pos_prune)) (length (cn_rule_covers cn x neg_prune)) in
          let n := length (cn_conds cn) in
          let exc := fun x => exceptions_cn cn x pos0 neg0 in
          g_rep <- grow_rule_cn_v (h_verbosity h) cn pos_grow neg_grow None (h_min_rule_samples h) (Rule_ []) ;;
          pr_rep <- prune_rule_on_v (h_verbosity h) metric i (i_replaced orig i (Some g_rep)) g_rep ;;
          g_rev <- grow_rule_cn_v (h_verbosity h) cn pos_grow neg_grow None (h_min_rule_samples h) r ;;
          pr_rev <- prune_rule_on_v (h_verbosity h) metric i (i_replaced orig i (Some g_rev)) g_rev ;;
          rep_dl <- (if opt_neq pr_rep r then total_bits exc n (i_replaced orig i pr_rep) else Ok orig_dl) ;;
          rev_dl <- (if opt_neq pr_rev r then total_bits exc n (i_replaced orig i pr_rev) else Ok orig_dl) ;;
          _ <- say (h_verbosity h) 3 Finite ;; (* ripper.py:863-871 / 1071-1079: the three description lengths *)
          new' <- choose_rule r pr_rep pr_rev orig_dl rep_dl rev_dl i new ;;
          let '(pos', neg') := rm_rule_covers_cn cn r pos neg in
          if length pos' =? 0 then Ok (new', t + 2)
          else optimize_loop_cn_v e h cn orig orig_dl pos0 neg0 (t + 2) (S i) rest new' pos' neg'
  end.
(** ripper.py:895-1101 [_optimize_ruleset_cn] *)
Definition optimize_cn_v (e : env) (h : hyper) (cn : catnap) (t : nat) (rs : list rule) (pos neg : list nat)
  : res (list rule * nat) :=
  '(_, dl) <- best_subset (fun x => exceptions_cn cn x pos neg) (length (cn_conds cn)) rs ;;
  '(new, t') <- optimize_loop_cn_v e h cn rs dl pos neg t 0 rs (map Some rs) pos neg ;;
  rs' <- force_rules new ;;
  Ok (rs', t').

(** ripper.py:732-891, the loop of [_optimize_ruleset]: pruning is evaluated on the whole ruleset, potential dls use bestsubset *)
Fixpoint optimize_loop_v (e : env) (h : hyper) (cols : list pyval) (possible : list cond) (orig : list rule) (orig_dl : Q)
    (pos0 neg0 : list row) (t i : nat) (todo : list rule) (new : list (option rule)) (pos neg : list row)
  : res (list (option rule) * nat) :=
  match todo with
  | [] => Ok (new, t)
  | r :: rest =>
      let '(pos_grow, pos_prune) := df_shuffled_split e t (grow_size h) pos in
      let '(neg_grow, neg_prune) := df_shuffled_split e (S t) (grow_size h) neg in
      if length pos_grow =? 0 then Ok (new, t + 2)
      else
        stop <- stop_early_opt h new (length pos) (length neg) ;;
        if stop : bool then Ok (new, t + 2)
        else
          let metric := fun x => accuracy_metric (length pos_prune) (length neg_prune)
                                   (length (rs_rcov cols (set_nth i x orig) pos_prune))
                                   (length (rs_rcov cols (set_nth i x orig) neg_prune)) in
          let n := length possible in
          let exc := fun x => exceptions_df cols x pos0 neg0 in
          g_rep <- grow_rule_v (h_verbosity h) cols possible pos_grow neg_grow None (h_min_rule_samples h) (Rule_ []) ;;
          pr_rep <- prune_rule_on_v (h_verbosity h) metric i (i_replaced orig i (Some g_rep)) g_rep ;;
          g_rev <- grow_rule_v (h_verbosity h) cols possible pos_grow neg_grow None (h_min_rule_samples h) r ;;
          pr_rev <- prune_rule_on_v (h_verbosity h) metric i (i_replaced orig i (Some g_rev)) g_rev ;;
          rep_dl <- (if opt_neq pr_rep r then x <- best_subset exc n (i_replaced orig i pr_rep) ;; Ok (snd x) else Ok orig_dl) ;;
          rev_dl <- (if opt_neq pr_rev r then x <- best_subset exc n (i_replaced orig i pr_rev) ;; Ok (snd x) else Ok orig_dl) ;;
          _ <- say (h_verbosity h) 3 Finite ;; (* ripper.py:863-871 / 1071-1079: the three description lengths *)
          new' <- choose_rule r pr_rep pr_rev orig_dl rep_dl rev_dl i new ;;
          let pos' := drop_labels pos (labels (rcov cols r pos)) in
          let neg' := drop_labels neg (labels (rcov cols r neg)) in
          if length pos' =? 0 then Ok (new', t + 2)
          else optimize_loop_v e h cols possible orig orig_dl pos0 neg0 (t + 2) (S i) rest new' pos' neg'
  end.
(** ripper.py:698-893 [_optimize_ruleset] *)
Definition optimize_v (e : env) (h : hyper) (cols : list pyval) (possible : list cond) (t : nat) (rs : list rule)
    (pos neg : list row) : res (list rule * nat) :=
  '(_, dl) <- best_subset (fun x => exceptions_df cols x pos neg) (length possible) rs ;;
  '(new, t') <- optimize_loop_v e h cols possible rs dl pos neg t 0 rs (map Some rs) pos neg ;;
  rs' <- force_rules new ;;
  Ok (rs', t').

(** ripper.py:1147-1185 [_cover_remaining_positives_cn]: note that covered examples are NOT removed first *)
Definition cover_remaining_cn_v (e : env) (h : hyper) (cn : catnap) (t : nat) (rs : list rule) (pos neg : list nat)
  : res (list rule * nat) :=
  if 1 <=? length pos then ripper_grow_cn_v e h cn t rs pos neg else Ok (rs, t).
(** ripper.py:1103-1145 [_cover_remaining_positives]: covered examples are removed; possible_conds is extended from the rest.
    Returns the rules, the possible conditions and the tick. [_ruleset_frommodel] of an empty ruleset is a fresh one. *)
Definition cover_remaining_v (e : env) (h : hyper) (cols : list pyval) (possible : list cond) (t : nat) (rs : list rule)
    (pos neg : list row) : res (list rule * list cond * nat) :=
  let pos' := drop_labels pos (labels (rs_rcov cols rs pos)) in
  let neg' := drop_labels neg (labels (rs_rcov cols rs neg)) in
  if 1 <=? length pos' then
    let old := match rs with [] => [] | _ => possible end in
    let possible' := update_possible_conds (set_order e) old (mkframe cols pos') (mkframe cols neg') in
    '(rs', t') <- ripper_grow_v e h cols possible' t rs pos' neg' ;;
    Ok (rs', possible', t')
  else Ok (rs, possible, t).

(** ripper.py:190-365: all stages, as (the ruleset assigned to [ruleset_] last, the outcome) *)
Definition ripper_trace_v (e : env) (h : hyper) (cnopt : bool) (df : frame) (cf pc : pyval) (init : ruleset) : option ruleset * res ruleset :=
  if cnopt then
    match (cn <- cn_make df cf ;;
           '(p, n) <- pos_neg_split df cf pc ;;
           '(rs1, t1) <- ripper_grow_cn_v e h cn 0 (rs_rules init) (labels (frows p)) (labels (frows n)) ;;
           Ok (cn, labels (frows p), labels (frows n), rs1, t1)) with
    | Err er => (None, Err er)
    | Ok (cn, pos, neg, rs1, t1) =>
        ripper_stages (rs_uncov init) (cn_conds cn) (fun t rs => optimize_cn_v e h cn t rs pos neg) (h_k h)
          (fun _ => 1 <=? length pos)
          (fun t rs => '(rs3, t3) <- cover_remaining_cn_v e h cn t rs pos neg ;; Ok (rs3, cn_conds cn, t3))
          (fun possible3 rs => best_subset (fun x => exceptions_cn cn x pos neg) (length possible3) rs) rs1 t1
    end
  else
    match ('(p, n) <- pos_neg_split df cf pc ;;
           p' <- drop_col p cf ;; n' <- drop_col n cf ;;
           let possible := update_possible_conds (set_order e) (match rs_possible init with Some l => l | None => [] end) p' n' in
           '(rs1, t1) <- ripper_grow_v e h (fcols p') possible 0 (rs_rules init) (frows p') (frows n') ;;
           Ok (fcols p', possible, frows p', frows n', rs1, t1)) with
    | Err er => (None, Err er)
    | Ok (cols, possible, pos, neg, rs1, t1) =>
        ripper_stages (rs_uncov init) possible (fun t rs => optimize_v e h cols possible t rs pos neg) (h_k h)
          (fun rs => 1 <=? length (drop_labels pos (labels (rs_rcov cols rs pos))))
          (fun t rs => cover_remaining_v e h cols possible t rs pos neg)
          (fun possible3 rs => best_subset (fun x => exceptions_df cols x pos neg) (length possible3) rs) rs1 t1
    end.

(** ** fit *)

(** irep.py:91-235 [IREP.fit] *)
Definition irep_fit_v (w : world) (cl : clf) (X : data) (y : option ydata) (cf pc : option pyval) (names : option (list pyval))
    (init : model_arg) (cnopt : bool) : clf * res unit :=
  let h := c_hyper cl in let e := w_env w in
  match irep_start init with
  | Err er => (cl, Err er)
  | Ok x0 =>
  let cl1 := set_rs cl x0 in
  match preprocess_training (w_cut w) (h_nbins h) X y cf pc names with
  | Err er => (cl1, Err er)
  | Ok (df, f, p, bt) =>
  let cl2 := set_data cl1 f p bt in
  match (x <- frommodel init ;; irep_train_v e h cnopt df f p x) with
  | Err er => (cl2, Err er)
  | Ok x1 =>
  let cl3 := set_rs cl2 x1 in
  match cols_without df f with
  | Err er => (cl3, Err er)
  | Ok feats =>
  let cl4 := set_feats cl3 (selected_features (rs_rules x1)) feats in
  let '(cl5, o) := clf_recalibrate cl4 (DFrame df) None None (Some 1%Z) false false in
  match o with
  | Err er => (cl5, Err er)
  | Ok _ =>
  let cl6 := set_classes cl5 [PInt 0; PInt 1] in
  match c_rs cl6 with
  | None => (cl6, Err AttributeError)
  | Some x2 => (set_rs cl6 (dedupe_trim e h x2), Ok tt)
  end end end end end end.

(** ripper.py:115-390 [RIPPER.fit] *)
Definition ripper_fit_v (w : world) (cl : clf) (X : data) (y : option ydata) (cf pc : option pyval) (names : option (list pyval))
    (init : model_arg) (cnopt : bool) : clf * res unit :=
  let h := c_hyper cl in let e := w_env w in
  match preprocess_training (w_cut w) (h_nbins h) X y cf pc names with
  | Err er => (cl, Err er)
  | Ok (df, f, p, bt) =>
  let cl2 := set_data cl f p bt in
  match (match frommodel init with Ok x => ripper_trace_v e h cnopt df f p x | Err er => (None, Err er) end) with
  | (lf, Err er) => (keep_rs cl2 lf, Err er)
  | (_, Ok x1) =>
  let cl3 := set_rs cl2 x1 in
  match cols_without df f with
  | Err er => (cl3, Err er)
  | Ok feats =>
  let cl4 := set_rs (set_feats cl3 (selected_features (rs_rules x1)) feats) (dedupe_trim e h x1) in
  let '(cl5, o) := clf_recalibrate cl4 (DFrame df) None None (Some 1%Z) false false in
  match o with
  | Err er => (cl5, Err er)
  | Ok _ => (set_classes cl5 [PInt 0; PInt 1], Ok tt)
  end end end end.

(** fit with keyword arguments. irep.py:153-160: the initial model is looked at before the keywords are stored. *)
Definition fit_v (w : world) (cl : clf) (X : data) (y : option ydata) (cf pc : option pyval) (names : option (list pyval))
    (init : model_arg) (cnopt : bool) (kwargs : list (param * pvalue)) : clf * res unit :=
  match c_alg cl with
  | IREP_ => match irep_start init with
             | Err er => (cl, Err er)
             | Ok _ => irep_fit_v w (set_fit_params cl kwargs) X y cf pc names init cnopt
             end
  | RIPPER_ => ripper_fit_v w (set_fit_params cl kwargs) X y cf pc names init cnopt
  end.
