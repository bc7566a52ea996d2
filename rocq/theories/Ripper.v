(** * Ripper.v : the RIPPER learner and its description-length arithmetic (ripper.py) *)
From Verif Require Export Irep.

(** ** Description lengths.
    A number of bits b is represented exactly by the rational q with b = 1/2 * log2 q:
    adding bits is multiplying, comparing is comparing, a bits is 4^a. *)

(** ripper.py:1240-1262 [_r_theory_bits] from k = number of conditions and n = number of possible conditions.
    k/n raises ZeroDivisionError for n = 0; 1/(1-pr) raises it for k = n; log2 of a negative number is a ValueError for k > n. *)
Definition theory_bits (k0 n : nat) : res Q :=
  let k := Nat.max k0 1 in
  if n =? 0 then Err ZeroDivisionError
  else if k =? n then Err ZeroDivisionError
  else if n <? k then Err ValueError
  else let q := (qn k * Qpower (qn n / qn k) (Z.of_nat k) * Qpower (qn n / qn (n - k)) (Z.of_nat (n - k)))%Q in
       Ok (Qred (if Qle_bool 4 q then q else 4%Q)).

(** ripper.py:1298-1300 / 1324-1326: log2(nCr(p, fp)) + log2(nCr(N - p, fn)); log2 of a number <= 0 is a ValueError *)
Definition exception_bits (N p fp fn : Z) : res Q :=
  let a := nCr p fp in
  let b := nCr (N - p) fn in
  if (a <=? 0)%Z || (b <=? 0)%Z then Err ValueError else Ok (inject_Z ((a * b) * (a * b))).

(** ripper.py:1309-1332 [_exceptions_bits_cn] *)
Definition exceptions_cn (cn : catnap) (rs : list rule) (pos neg : list nat) : res Q :=
  let pc := Z.of_nat (length (cn_rs_covers cn rs pos)) in
  let nc := Z.of_nat (length (cn_rs_covers cn rs neg)) in
  exception_bits (Z.of_nat (length pos) + Z.of_nat (length neg)) (pc + nc) nc (Z.of_nat (length pos) - pc).

(** [Ruleset.covers] on rows (base.py:116-129) and ripper.py:1281-1306 [_exceptions_bits] *)
Definition rs_rcov (cols : list pyval) (rs : list rule) (rows : list row) : list row :=
  if rs_isuniversal rs then rows
  else if rs_isnull rs then []
  else flat_map (fun r => rcov cols r rows) rs.
(* ripper.py:1281-1306 [_exceptions_bits], exact value *)
Definition exceptions_df (cols : list pyval) (rs : list rule) (pos neg : list row) : res Q :=
  let pc := Z.of_nat (length (rs_rcov cols rs pos)) in
  let nc := Z.of_nat (length (rs_rcov cols rs neg)) in
  exception_bits (Z.of_nat (length pos) + Z.of_nat (length neg)) (pc + nc) nc (Z.of_nat (length pos) - pc).

(** ripper.py:1264-1278 [_rs_theory_bits]; 0 bits is q = 1 *)
Fixpoint rs_theory (n : nat) (rs : list rule) : res Q :=
  match rs with
  | [] => Ok 1%Q
  | r :: t => a <- theory_bits (length (conds r)) n ;; b <- rs_theory n t ;; Ok (Qred (a * b))
  end.
(** ripper.py:1374-1379 / 1466-1473 total bits of the whole ruleset; [exc] is the engine's exceptions function *)
Definition total_bits (exc : list rule -> res Q) (n : nat) (rs : list rule) : res Q :=
  a <- rs_theory n rs ;; b <- exc rs ;; Ok (Qred (a * b)).
(** ripper.py:1382-1395 / 1476-1489: the description length of each prefix ([pre]: rules already seen, [theory]: their bits) *)
Fixpoint subset_dls (exc : list rule -> res Q) (n : nat) (pre : list rule) (theory : Q) (rs : list rule) : res (list Q) :=
  match rs with
  | [] => Ok []
  | r :: t =>
      a <- theory_bits (length (conds r)) n ;;
      let theory' := Qred (theory * a) in
      x <- exc (pre ++ [r]) ;;
      rest <- subset_dls exc n (pre ++ [r]) theory' t ;;
      Ok (Qred (theory' * x) :: rest)
  end.
(** ripper.py:1399-1405 / 1494-1499: keep rule 0 and every rule whose prefix dl is <= the previous prefix's *)
Fixpoint keep_rules (prev : option Q) (rs : list rule) (dls : list Q) : list rule :=
  match rs, dls with
  | r :: t, d :: ds =>
      (match prev with
       | None => [r]
       | Some p => if Qle_bool d p then [r] else []
       end) ++ keep_rules (Some d) t ds
  | _, _ => []
  end.
(** ripper.py:1380-1423 / 1474-1518 with bestsubset_dl=True: the best subset and its dl *)
Definition best_subset (exc : list rule -> res Q) (n : nat) (rs : list rule) : res (list rule * Q) :=
  dls <- subset_dls exc n [] 1 rs ;;
  let kept := keep_rules None rs dls in
  mdl <- total_bits exc n kept ;;
  Ok (kept, mdl).

(** dl_diff <= dl_allowance: the quotient is at most 4^a *)
(* ripper.py:456, 587: dl_diff <= dl_allowance *)
Definition within_allowance (diff : Q) (a : Z) : bool := Qle_bool diff (Qpower 4 a).

(** ** Stage 1: growing the ruleset *)

(** ripper.py:509-528, 544 / 648-667, 683: bookkeeping of the description length when a rule is added.
    State: None before the first rule ("ruleset_dl is None"), else (theory bits, minimum dl so far). Returns also dl_diff. *)
Definition dl_update (exc : list rule -> res Q) (n : nat) (r : rule) (rs' : list rule) (st : option (Q * Q)) (diff : Q)
  : res (option (Q * Q) * Q) :=
  rule_dl <- theory_bits (length (conds r)) n ;;
  match st with
  | None =>
      data <- exc rs' ;;
      Ok (Some (rule_dl, Qred (rule_dl * data)), diff)
  | Some (theory, mdl) =>
      let theory' := Qred (theory * rule_dl) in
      data <- exc rs' ;;
      let dl := Qred (theory' * data) in
      Ok (Some (theory', if Qlt_b dl mdl then dl else mdl), Qred (dl / mdl))
  end.

(** ripper.py:587-694, the loop of [_grow_ruleset_cn]. [pos0], [neg0]: the full index sets used for the exceptions *)
Fixpoint ripper_loop_cn (fuel : nat) (e : env) (h : hyper) (cn : catnap) (pos0 neg0 : list nat) (t : nat) (rs : list rule)
    (st : option (Q * Q)) (diff : Q) (pos neg : list nat) : res (list rule * nat) :=
  match fuel with
  | O => Err OutOfFuel
  | S k =>
      if (length pos =? 0) || negb (within_allowance diff (h_dl h)) then Ok (rs, t)
      else if stop_early (length rs) (count_conds rs) (length pos) (length neg)
                (h_max_rules h) (h_min_ruleset_samples h) (h_max_total_conds h) then Ok (rs, t)
      else
        let '(pos_grow, pos_prune) := random_split e t (grow_size h) pos in
        let '(neg_grow, neg_prune) := random_split e (S t) (grow_size h) neg in
        if length pos_grow =? 0 then Ok (rs, t + 2)
        else
          grown <- grow_rule_cn cn pos_grow neg_grow (h_max_rule_conds h) (h_min_rule_samples h) (Rule_ []) ;;
          if rule_isempty grown then Ok (rs, t + 2)
          else
            pruned <- (if prune_off h then Ok (Some grown)
                       else prune_rule (fun r => ripper_grow_metric (length (cn_rule_covers cn r pos_prune))
                                                                    (length (cn_rule_covers cn r neg_prune))) grown) ;;
            match pruned with
            | None => Err AttributeError (* the metric never returns None *)
            | Some pruned =>
                let rs' := rs_add pruned rs in
                '(st', diff') <- dl_update (fun x => exceptions_cn cn x pos0 neg0) (length (cn_conds cn)) pruned rs' st diff ;;
                let '(pos', neg') := rm_rule_covers_cn cn pruned pos neg in
                ripper_loop_cn k e h cn pos0 neg0 (t + 2) rs' st' diff' pos' neg'
            end
  end.
(** ripper.py:559-696 [_grow_ruleset_cn] *)
Definition ripper_grow_cn (e : env) (h : hyper) (cn : catnap) (t : nat) (init : list rule) (pos neg : list nat)
  : res (list rule * nat) :=
  ripper_loop_cn (S (length pos)) e h cn pos neg t init None 1 pos neg.

(** ripper.py:456-555, the loop of [_grow_ruleset]. Note: pruning happens even when prune_size is 0. *)
Fixpoint ripper_loop (fuel : nat) (e : env) (h : hyper) (cols : list pyval) (possible : list cond) (pos0 neg0 : list row)
    (t : nat) (rs : list rule) (st : option (Q * Q)) (diff : Q) (pos neg : list row) : res (list rule * nat) :=
  match fuel with
  | O => Err OutOfFuel
  | S k =>
      if (length pos =? 0) || negb (within_allowance diff (h_dl h)) then Ok (rs, t)
      else if stop_early (length rs) (count_conds rs) (length pos) (length neg)
                (h_max_rules h) (h_min_ruleset_samples h) (h_max_total_conds h) then Ok (rs, t)
      else
        let '(pos_grow, pos_prune) := df_shuffled_split e t (grow_size h) pos in
        let '(neg_grow, neg_prune) := df_shuffled_split e (S t) (grow_size h) neg in
        if length pos_grow =? 0 then Ok (rs, t + 2)
        else
          grown <- grow_rule cols possible pos_grow neg_grow (h_max_rule_conds h) (h_min_rule_samples h) (Rule_ []) ;;
          if rule_isempty grown then Ok (rs, t + 2)
          else
            pruned <- prune_rule (fun r => ripper_grow_metric (length (rcov cols r pos_prune))
                                                              (length (rcov cols r neg_prune))) grown ;;
            match pruned with
            | None => Err AttributeError
            | Some pruned =>
                let rs' := rs_add pruned rs in
                '(st', diff') <- dl_update (fun x => exceptions_df cols x pos0 neg0) (length possible) pruned rs' st diff ;;
                ripper_loop k e h cols possible pos0 neg0 (t + 2) rs' st' diff'
                  (drop_labels pos (labels (rcov cols pruned pos))) (drop_labels neg (labels (rcov cols pruned neg)))
            end
  end.
(** ripper.py:428-557 [_grow_ruleset] *)
Definition ripper_grow (e : env) (h : hyper) (cols : list pyval) (possible : list cond) (t : nat) (init : list rule)
    (pos neg : list row) : res (list rule * nat) :=
  ripper_loop (S (length pos)) e h cols possible pos neg t init None 1 pos neg.

(** ** Stage 2: optimisation *)

(** [pr != rule] where pr may be None *)
(* ripper.py:824, 838, 1030, 1046: comparison of rules that may be None *)
Definition opt_neq (o : option rule) (r : rule) : bool :=
  match o with None => true | Some x => negb (rule_eqb x r) end.
(** [best_rule not in new_ruleset] where rules may be None *)
(* ripper.py:874, 1082: membership of rules that may be None *)
Definition opt_in (o : option rule) (l : list (option rule)) : bool :=
  match o with
  | None => existsb (fun x => match x with None => true | _ => false end) l
  | Some r => existsb (fun x => match x with Some y => rule_eqb y r | None => false end) l
  end.
(** a ruleset containing None makes every later computation on it raise AttributeError ("'NoneType' object has no attribute 'conds'") *)
(* ripper.py:700-893: the optimised rules, which must not be None when used *)
Fixpoint force_rules (l : list (option rule)) : res (list rule) :=
  match l with
  | [] => Ok []
  | None :: _ => Err AttributeError
  | Some r :: t => rest <- force_rules t ;; Ok (r :: rest)
  end.
(** [stop_early(new_ruleset, ...)]: count_conds on a ruleset containing None raises; it is only evaluated if max_total_conds is given
    and the max_rules test did not already answer *)
(* base_functions.py:798-802 [stop_early] as called by ripper.py *)
Definition stop_early_opt (h : hyper) (new : list (option rule)) (npos nneg : nat) : res bool :=
  if ge_lim (length new) (h_max_rules h) then Ok true
  else match h_max_total_conds h with
       | None => Ok (stop_early (length new) 0 npos nneg (h_max_rules h) (h_min_ruleset_samples h) None)
       | Some m => rs <- force_rules new ;;
                   Ok (stop_early (length new) (count_conds rs) npos nneg (h_max_rules h) (h_min_ruleset_samples h) (Some m))
       end.

(** ripper.py:841-843, 874-877 / 1049-1051, 1082-1085: choice among original, replacement, revision *)
Definition choose_rule (orig : rule) (rep rev_ : option rule) (dl0 dl1 dl2 : Q) (i : nat) (new : list (option rule))
  : res (list (option rule)) :=
  j <- argmin Qlt_b [dl0; dl1; dl2] ;;
  match nth_error [Some orig; rep; rev_] j with
  | None => Err IndexError
  | Some best => Ok (set_nth i (if opt_in best new then Some orig else best) new)
  end.

(** ripper.py:930-1099, the loop of [_optimize_ruleset_cn]. [todo]: the remaining original rules with their positions.
    max_rule_conds is NOT passed by fit (ripper.py:278-285), so growing is unlimited here. *)
Fixpoint optimize_loop_cn (e : env) (h : hyper) (cn : catnap) (orig : list rule) (orig_dl : Q) (pos0 neg0 : list nat)
    (t i : nat) (todo : list rule) (new : list (option rule)) (pos neg : list nat) : res (list (option rule) * nat) :=
  match todo with
  | [] => Ok (new, t)
  | r :: rest =>
      let '(pos_grow, pos_prune) := random_split e t (grow_size h) pos in
      let '(neg_grow, neg_prune) := random_split e (S t) (grow_size h) neg in
      if length pos_grow =? 0 then Ok (new, t + 2)
      else
        stop <- stop_early_opt h new (length pos) (length neg) ;;
        if stop : bool then Ok (new, t + 2)
        else
          let metric := fun x => accuracy_metric (length pos_prune) (length neg_prune)
                                   (length (cn_rule_covers cn x pos_prune)) (length (cn_rule_covers cn x neg_prune)) in
          let n := length (cn_conds cn) in
          let exc := fun x => exceptions_cn cn x pos0 neg0 in
          g_rep <- grow_rule_cn cn pos_grow neg_grow None (h_min_rule_samples h) (Rule_ []) ;;
          pr_rep <- prune_rule_on metric i (i_replaced orig i (Some g_rep)) g_rep ;;
          g_rev <- grow_rule_cn cn pos_grow neg_grow None (h_min_rule_samples h) r ;;
          pr_rev <- prune_rule_on metric i (i_replaced orig i (Some g_rev)) g_rev ;;
          rep_dl <- (if opt_neq pr_rep r then total_bits exc n (i_replaced orig i pr_rep) else Ok orig_dl) ;;
          rev_dl <- (if opt_neq pr_rev r then total_bits exc n (i_replaced orig i pr_rev) else Ok orig_dl) ;;
          new' <- choose_rule r pr_rep pr_rev orig_dl rep_dl rev_dl i new ;;
          let '(pos', neg') := rm_rule_covers_cn cn r pos neg in
          if length pos' =? 0 then Ok (new', t + 2)
          else optimize_loop_cn e h cn orig orig_dl pos0 neg0 (t + 2) (S i) rest new' pos' neg'
  end.
(** ripper.py:895-1101 [_optimize_ruleset_cn] *)
Definition optimize_cn (e : env) (h : hyper) (cn : catnap) (t : nat) (rs : list rule) (pos neg : list nat)
  : res (list rule * nat) :=
  '(_, dl) <- best_subset (fun x => exceptions_cn cn x pos neg) (length (cn_conds cn)) rs ;;
  '(new, t') <- optimize_loop_cn e h cn rs dl pos neg t 0 rs (map Some rs) pos neg ;;
  rs' <- force_rules new ;;
  Ok (rs', t').

(** ripper.py:732-891, the loop of [_optimize_ruleset]: pruning is evaluated on the whole ruleset, potential dls use bestsubset *)
Fixpoint optimize_loop (e : env) (h : hyper) (cols : list pyval) (possible : list cond) (orig : list rule) (orig_dl : Q)
    (pos0 neg0 : list row) (t i : nat) (todo : list rule) (new : list (option rule)) (pos neg : list row)
  : res (list (option rule) * nat) :=
  match todo with
  | [] => Ok (new, t)
  | r :: rest =>
      let '(pos_grow, pos_prune) := df_shuffled_split e t (grow_size h) pos in
      let '(neg_grow, neg_prune) := df_shuffled_split e (S t) (grow_size h) neg in
      if length pos_grow =? 0 then Ok (new, t + 2)
      else
        stop <- stop_early_opt h new (length pos) (length neg) ;;
        if stop : bool then Ok (new, t + 2)
        else
          let metric := fun x => accuracy_metric (length pos_prune) (length neg_prune)
                                   (length (rs_rcov cols (set_nth i x orig) pos_prune))
                                   (length (rs_rcov cols (set_nth i x orig) neg_prune)) in
          let n := length possible in
          let exc := fun x => exceptions_df cols x pos0 neg0 in
          g_rep <- grow_rule cols possible pos_grow neg_grow None (h_min_rule_samples h) (Rule_ []) ;;
          pr_rep <- prune_rule_on metric i (i_replaced orig i (Some g_rep)) g_rep ;;
          g_rev <- grow_rule cols possible pos_grow neg_grow None (h_min_rule_samples h) r ;;
          pr_rev <- prune_rule_on metric i (i_replaced orig i (Some g_rev)) g_rev ;;
          rep_dl <- (if opt_neq pr_rep r then x <- best_subset exc n (i_replaced orig i pr_rep) ;; Ok (snd x) else Ok orig_dl) ;;
          rev_dl <- (if opt_neq pr_rev r then x <- best_subset exc n (i_replaced orig i pr_rev) ;; Ok (snd x) else Ok orig_dl) ;;
          new' <- choose_rule r pr_rep pr_rev orig_dl rep_dl rev_dl i new ;;
          let pos' := drop_labels pos (labels (rcov cols r pos)) in
          let neg' := drop_labels neg (labels (rcov cols r neg)) in
          if length pos' =? 0 then Ok (new', t + 2)
          else optimize_loop e h cols possible orig orig_dl pos0 neg0 (t + 2) (S i) rest new' pos' neg'
  end.
(** ripper.py:698-893 [_optimize_ruleset] *)
Definition optimize (e : env) (h : hyper) (cols : list pyval) (possible : list cond) (t : nat) (rs : list rule)
    (pos neg : list row) : res (list rule * nat) :=
  '(_, dl) <- best_subset (fun x => exceptions_df cols x pos neg) (length possible) rs ;;
  '(new, t') <- optimize_loop e h cols possible rs dl pos neg t 0 rs (map Some rs) pos neg ;;
  rs' <- force_rules new ;;
  Ok (rs', t').

(** ripper.py:269-311: k passes, stopping early (but not at the last pass) when nothing changed *)
Fixpoint optimize_iter (pass : nat -> list rule -> res (list rule * nat)) (k : nat) (t : nat) (rs : list rule)
  : res (list rule * nat) :=
  match k with
  | O => Ok (rs, t)
  | S m =>
      '(new, t') <- pass t rs ;;
      if (negb (m =? 0)) && rs_eqb rs new then Ok (rs, t')
      else optimize_iter pass m t' new
  end.

(** ** Stage 3 *)
(** ripper.py:1147-1185 [_cover_remaining_positives_cn]: note that covered examples are NOT removed first *)
Definition cover_remaining_cn (e : env) (h : hyper) (cn : catnap) (t : nat) (rs : list rule) (pos neg : list nat)
  : res (list rule * nat) :=
  if 1 <=? length pos then ripper_grow_cn e h cn t rs pos neg else Ok (rs, t).
(** ripper.py:1103-1145 [_cover_remaining_positives]: covered examples are removed; possible_conds is extended from the rest.
    Returns the rules, the possible conditions and the tick. [_ruleset_frommodel] of an empty ruleset is a fresh one. *)
Definition cover_remaining (e : env) (h : hyper) (cols : list pyval) (possible : list cond) (t : nat) (rs : list rule)
    (pos neg : list row) : res (list rule * list cond * nat) :=
  let pos' := drop_labels pos (labels (rs_rcov cols rs pos)) in
  let neg' := drop_labels neg (labels (rs_rcov cols rs neg)) in
  if 1 <=? length pos' then
    let old := match rs with [] => [] | _ => possible end in
    let possible' := update_possible_conds (set_order e) old (mkframe cols pos') (mkframe cols neg') in
    '(rs', t') <- ripper_grow e h cols possible' t rs pos' neg' ;;
    Ok (rs', possible', t')
  else Ok (rs, possible, t).

(** ripper.py:204-365: stages 1-4 from the preprocessed frame; returns the MDL subset *)
Definition ripper_train (e : env) (h : hyper) (cnopt : bool) (df : frame) (cf pc : pyval) (init : ruleset) : res ruleset :=
  if cnopt then
    cn <- cn_make df cf ;;
    '(p, n) <- pos_neg_split df cf pc ;;
    let pos := labels (frows p) in
    let neg := labels (frows n) in
    '(rs1, t1) <- ripper_grow_cn e h cn 0 (rs_rules init) pos neg ;;
    '(rs2, t2) <- optimize_iter (fun t rs => optimize_cn e h cn t rs pos neg) (h_k h) t1 rs1 ;;
    '(rs3, _) <- cover_remaining_cn e h cn t2 rs2 pos neg ;;
    '(rs4, _) <- best_subset (fun x => exceptions_cn cn x pos neg) (length (cn_conds cn)) rs3 ;;
    Ok (Ruleset_ rs4)
  else
    '(p, n) <- pos_neg_split df cf pc ;;
    p' <- drop_col p cf ;; n' <- drop_col n cf ;;
    let cols := fcols p' in
    let pos := frows p' in
    let neg := frows n' in
    let possible := update_possible_conds (set_order e) (match rs_possible init with Some l => l | None => [] end) p' n' in
    '(rs1, t1) <- ripper_grow e h cols possible 0 (rs_rules init) pos neg ;;
    '(rs2, t2) <- optimize_iter (fun t rs => optimize e h cols possible t rs pos neg) (h_k h) t1 rs1 ;;
    '(rs3, possible3, _) <- cover_remaining e h cols possible t2 rs2 pos neg ;;
    '(rs4, _) <- best_subset (fun x => exceptions_df cols x pos neg) (length possible3) rs3 ;;
    Ok (Ruleset_ rs4).

(** ** What [fit] leaves in [ruleset_] when training raises half-way *)
(** ripper.py:269-311: the passes of stage 2; the rules held by [ruleset_] at the end of the loop, or when a pass raises *)
Fixpoint optimize_trace (pass : nat -> list rule -> res (list rule * nat)) (k : nat) (t : nat) (rs : list rule) : list rule * res nat :=
  match k with
  | O => (rs, Ok t)
  | S m =>
      match pass t rs with
      | Err er => (rs, Err er)
      | Ok (new, t') => if (negb (m =? 0)) && rs_eqb rs new then (rs, Ok t') else optimize_trace pass m t' new
      end
  end.
(** ripper.py:262-365: stages 2-4 from the ruleset [rs1] of stage 1, as (the ruleset assigned to [ruleset_] last, the outcome).
    [regrow rs]: stage 3 finds positives to cover, so it starts from _ruleset_frommodel(ruleset_), a fresh Ruleset if that is empty. *)
Definition ripper_stages (uncov : option stats) (possible : list cond) (pass : nat -> list rule -> res (list rule * nat)) (k : nat)
    (regrow : list rule -> bool) (cover : nat -> list rule -> res (list rule * list cond * nat))
    (subset : list cond -> list rule -> res (list rule * Q)) (rs1 : list rule) (t1 : nat) : option ruleset * res ruleset :=
  match optimize_trace pass k t1 rs1 with
  | (rs2, Err er) => (Some (mkruleset rs2 (Some possible) uncov), Err er)
  | (rs2, Ok t2) =>
      match cover t2 rs2 with
      | Err er => (Some (mkruleset rs2 (Some possible) uncov), Err er)
      | Ok (rs3, possible3, _) =>
          match subset possible3 rs3 with
          | Err er => (Some (mkruleset rs3 (Some possible3) (if regrow rs2 && (length rs2 =? 0) then None else uncov)), Err er)
          | Ok (rs4, _) => (Some (Ruleset_ rs4), Ok (Ruleset_ rs4))
          end
      end
  end.
(** ripper.py:190-365: all stages; None: nothing was assigned *)
Definition ripper_trace (e : env) (h : hyper) (cnopt : bool) (df : frame) (cf pc : pyval) (init : ruleset) : option ruleset * res ruleset :=
  if cnopt then
    match (cn <- cn_make df cf ;;
           '(p, n) <- pos_neg_split df cf pc ;;
           '(rs1, t1) <- ripper_grow_cn e h cn 0 (rs_rules init) (labels (frows p)) (labels (frows n)) ;;
           Ok (cn, labels (frows p), labels (frows n), rs1, t1)) with
    | Err er => (None, Err er)
    | Ok (cn, pos, neg, rs1, t1) =>
        ripper_stages (rs_uncov init) (cn_conds cn) (fun t rs => optimize_cn e h cn t rs pos neg) (h_k h)
          (fun _ => 1 <=? length pos)
          (fun t rs => '(rs3, t3) <- cover_remaining_cn e h cn t rs pos neg ;; Ok (rs3, cn_conds cn, t3))
          (fun possible3 rs => best_subset (fun x => exceptions_cn cn x pos neg) (length possible3) rs) rs1 t1
    end
  else
    match ('(p, n) <- pos_neg_split df cf pc ;;
           p' <- drop_col p cf ;; n' <- drop_col n cf ;;
           let possible := update_possible_conds (set_order e) (match rs_possible init with Some l => l | None => [] end) p' n' in
           '(rs1, t1) <- ripper_grow e h (fcols p') possible 0 (rs_rules init) (frows p') (frows n') ;;
           Ok (fcols p', possible, frows p', frows n', rs1, t1)) with
    | Err er => (None, Err er)
    | Ok (cols, possible, pos, neg, rs1, t1) =>
        ripper_stages (rs_uncov init) possible (fun t rs => optimize e h cols possible t rs pos neg) (h_k h)
          (fun rs => 1 <=? length (drop_labels pos (labels (rs_rcov cols rs pos))))
          (fun t rs => cover_remaining e h cols possible t rs pos neg)
          (fun possible3 rs => best_subset (fun x => exceptions_df cols x pos neg) (length possible3) rs) rs1 t1
    end.
Lemma optimize_trace_iter pass k : forall t rs,
  optimize_iter pass k t rs = match optimize_trace pass k t rs with (rs', Ok t') => Ok (rs', t') | (_, Err er) => Err er end.
Proof.
  induction k as [|k IH]; intros t rs; cbn [optimize_iter optimize_trace]; auto.
  destruct (pass t rs) as [[new t']|er]; cbn [bind]; auto. destruct (negb (k =? 0) && rs_eqb rs new); auto.
Qed.
(** the outcome is that of [ripper_train] *)
Lemma ripper_trace_train e h cnopt df cf pc init : snd (ripper_trace e h cnopt df cf pc init) = ripper_train e h cnopt df cf pc init.
Proof.
  unfold ripper_trace, ripper_train, ripper_stages. destruct cnopt.
  - destruct (cn_make df cf) as [cn|]; [|reflexivity]. cbn [bind]. destruct (pos_neg_split df cf pc) as [[p n]|]; [|reflexivity]. cbn [bind]. cbn zeta.
    destruct (ripper_grow_cn _ _ _ _ _ _ _) as [[rs1 t1]|]; [|reflexivity]. cbn [bind]. rewrite optimize_trace_iter.
    destruct (optimize_trace _ _ _ _) as [rs2 [t2|er]]; [|reflexivity]. cbn [bind].
    destruct (cover_remaining_cn _ _ _ _ _ _ _) as [[rs3 t3]|]; [|reflexivity]. cbn [bind].
    destruct (best_subset _ _ _) as [[rs4 q]|]; reflexivity.
  - destruct (pos_neg_split df cf pc) as [[p n]|]; [|reflexivity]. cbn [bind]. destruct (drop_col p cf) as [p'|]; [|reflexivity]. cbn [bind].
    destruct (drop_col n cf) as [n'|]; [|reflexivity]. cbn [bind]. cbn zeta.
    destruct (ripper_grow _ _ _ _ _ _ _ _) as [[rs1 t1]|]; [|reflexivity]. cbn [bind]. rewrite optimize_trace_iter.
    destruct (optimize_trace _ _ _ _) as [rs2 [t2|er]]; [|reflexivity]. cbn [bind].
    destruct (cover_remaining _ _ _ _ _ _ _) as [[[rs3 ps3] t3]|]; [|reflexivity]. cbn [bind].
    destruct (best_subset _ _ _) as [[rs4 q]|]; reflexivity.
Qed.
(** a training that ends has assigned its result *)
Lemma ripper_trace_left e h cnopt df cf pc init x : snd (ripper_trace e h cnopt df cf pc init) = Ok x -> fst (ripper_trace e h cnopt df cf pc init) = Some x.
Proof.
  assert (S : forall uncov possible pass k regrow cover subset rs1 t1,
    snd (ripper_stages uncov possible pass k regrow cover subset rs1 t1) = Ok x -> fst (ripper_stages uncov possible pass k regrow cover subset rs1 t1) = Some x).
  { intros. unfold ripper_stages in *. destruct (optimize_trace _ _ _ _) as [rs2 [t2|er]]; [|discriminate].
    destruct (cover t2 rs2) as [[[rs3 ps3] t3]|]; [|discriminate]. destruct (subset ps3 rs3) as [[rs4 q]|]; [|discriminate]. cbn [fst snd] in *. congruence. }
  unfold ripper_trace. destruct cnopt; match goal with |- context [match ?b with Ok _ => _ | Err _ => _ end] => destruct b as [v|er] end; try discriminate.
  - destruct v as [[[[cn pos] neg] rs1] t1]. apply S.
  - destruct v as [[[[[cols possible] pos] neg] rs1] t1]. apply S.
Qed.
