(** * Learn.v : growing and pruning one rule (base_functions.py), CatNap ("cn") and DataFrame engines *)
From Verif Require Export Catnap.

(** replace the condition list, keeping other attributes (as [deepcopy] + [conds.pop] do) *)
(* rule.conds = ..., base_functions.py:115-285 *)
Definition set_conds (r : rule) (cs : list cond) : rule := mkrule cs (rstats r).
(** [rule0.conds.pop(-1)] *)
(* base_functions.py:47, 92, 165, 199, 249, 283: conds.pop(-1) *)
Definition pop_cond (r : rule) : rule := set_conds r (removelast (conds r)).

(** ** Coverage of a list of rows (DataFrame engine).
    [Rule.covers] of a frame whose columns include the rule's features (base.py:379-384); lemma [rule_covers_ok] relates it to
    the KeyError-aware version. The learners only build conditions from existing columns; an initial model mentioning a
    missing feature (KeyError in the code) is outside this engine's model. *)
Definition row_sat (cols : list pyval) (r : rule) (rw : row) : bool :=
  forallb (fun c => cell_eq cols (cfeat c) (cval c) rw) (conds r).
(* base.py:379-384 [Rule.covers] on rows *)
Definition rcov (cols : list pyval) (r : rule) (rs : list row) : list row := filter (row_sat cols r) rs.

(** ** Best successor *)

(** base_functions.py:607-623 [best_rule_successor_cn]: scan cn.conds keeping the first strictly best gain;
    best_gain starts at -inf ([None]); gain > 0 is [gain2 > 1]. *)
Fixpoint best_scan {C} (g : C -> Q) (best : option (C * Q)) (cs : list C) : option (C * Q) :=
  match cs with
  | [] => best
  | c :: t =>
      let v := g c in
      match best with
      | None => best_scan g (Some (c, v)) t
      | Some (b, bv) => if Qlt_b bv v then best_scan g (Some (c, v)) t else best_scan g best t
      end
  end.
(** base_functions.py:441-454 [gain_cn] *)
Definition gain_cn (cn : catnap) (c : cond) (rpos rneg : list nat) : Q :=
  gain2 (length rpos) (length rneg)
        (length (cn_cond_covers cn c rpos)) (length (cn_cond_covers cn c rneg)).
(* base_functions.py:607-623 [best_rule_successor_cn] *)
Definition best_rule_successor_cn (cn : catnap) (r : rule) (pos neg : list nat) : option rule :=
  let rpos := cn_rule_covers cn r pos in
  let rneg := cn_rule_covers cn r neg in
  match best_scan (fun c => gain_cn cn c rpos rneg) None (cn_conds cn) with
  | Some (c, v) => if Qlt_b 1 v then Some (Rule_ (conds r ++ [c])) else None
  | None => None
  end.

(** base_functions.py:429-438 [gain] *)
Definition gain_df (cols : list pyval) (before after : rule) (pos neg : list row) : Q :=
  gain2 (length (rcov cols before pos)) (length (rcov cols before neg))
        (length (rcov cols after pos)) (length (rcov cols after neg)).
(** base_functions.py:591-604 [best_successor]: best_gain starts at 0 ([gain2] 1), only strictly larger gains count *)
Fixpoint best_succ_scan (g : rule -> Q) (best_gain : Q) (best : option rule) (l : list rule) : option rule :=
  match l with
  | [] => best
  | s :: t => let v := g s in
              if Qlt_b best_gain v then best_succ_scan g v (Some s) t else best_succ_scan g best_gain best t
  end.
(* base_functions.py:591-604 [best_successor] *)
Definition best_successor (cols : list pyval) (r : rule) (possible : list cond) (pos neg : list row) : option rule :=
  best_succ_scan (fun s => gain_df cols r s pos neg) 1 None (successors r possible).

(** ** Growing *)

(** base_functions.py:43-48 / 88-93: is there a user halt, and the rule returned by it *)
Definition user_halt (n_conds n_neg n_pos : nat) (max_rule_conds min_rule_samples : option Z) : bool :=
  ge_lim n_conds max_rule_conds || lt_lim (n_neg + n_pos) min_rule_samples.
(* base_functions.py:42-57, 87-102: the exits of the growing loop *)
Definition halted_rule (min_rule_samples : option Z) (r : rule) : rule :=
  match min_rule_samples, conds r with
  | Some _, _ :: _ => pop_cond r
  | _, _ => r
  end.

(** base_functions.py:86-101, the loop of [grow_rule_cn]; one unit of fuel per iteration *)
Fixpoint grow_loop_cn (fuel : nat) (cn : catnap) (pos neg : list nat) (max_rule_conds min_rule_samples : option Z) (r : rule)
  : res rule :=
  match fuel with
  | O => Err OutOfFuel
  | S k =>
      let nneg := length (cn_rule_covers cn r neg) in
      if nneg =? 0 then Ok r
      else if user_halt (length (conds r)) nneg (length (cn_rule_covers cn r pos)) max_rule_conds min_rule_samples
      then Ok (halted_rule min_rule_samples r)
      else match best_rule_successor_cn cn r pos neg with
           | None => Ok r
           | Some r1 => grow_loop_cn k cn pos neg max_rule_conds min_rule_samples r1
           end
  end.
(** base_functions.py:70-112 [grow_rule_cn] *)
Definition grow_rule_cn (cn : catnap) (pos neg : list nat) (max_rule_conds min_rule_samples : option Z) (initial : rule)
  : res rule :=
  grow_loop_cn (S (length neg)) cn pos neg max_rule_conds min_rule_samples initial.

(** base_functions.py:41-57, the loop of [grow_rule] *)
Fixpoint grow_loop (fuel : nat) (cols : list pyval) (possible : list cond) (pos neg : list row)
    (max_rule_conds min_rule_samples : option Z) (r : rule) : res rule :=
  match fuel with
  | O => Err OutOfFuel
  | S k =>
      let nneg := length (rcov cols r neg) in
      if nneg =? 0 then Ok r
      else if user_halt (length (conds r)) nneg (length (rcov cols r pos)) max_rule_conds min_rule_samples
      then Ok (halted_rule min_rule_samples r)
      else match best_successor cols r possible pos neg with
           | None => Ok r
           | Some r1 => grow_loop k cols possible pos neg max_rule_conds min_rule_samples r1
           end
  end.
(** base_functions.py:25-68 [grow_rule] *)
Definition grow_rule (cols : list pyval) (possible : list cond) (pos neg : list row)
    (max_rule_conds min_rule_samples : option Z) (initial : rule) : res rule :=
  grow_loop (S (length neg)) cols possible pos neg max_rule_conds min_rule_samples initial.

(** ** Pruning *)

(** base_functions.py:149-172 / 233-256: test the rule with its first n, n-1, ..., 1 conditions; a value >= the best so far
    (starting from 0) becomes the new best; a None value aborts with None. [cur] (the rule with n conditions) is what
    [current_rule] is after popping. *)
Fixpoint prune_loop (metric : rule -> res (option Q)) (r : rule) (n : nat) (best_v : Q) (best : option rule)
  : res (option (option rule)) :=
  match n with
  | O => Ok (Some best)
  | S m =>
      let cur := set_conds r (firstn n (conds r)) in
      v <- metric cur ;;
      match v with
      | None => Ok None
      | Some v => if Qle_bool best_v v then prune_loop metric r m v (Some cur)
                  else prune_loop metric r m best_v best
      end
  end.
(** base_functions.py:142-172 / 226-256 [prune_rule], [prune_rule_cn] without eval_index_on_ruleset; [Ok None] is Python's None *)
Definition prune_rule (metric : rule -> res (option Q)) (r : rule) : res (option rule) :=
  if rule_isempty r then Ok (Some r)
  else x <- prune_loop metric r (length (conds r)) 0 (Some r) ;;
       match x with
       | None => Ok None
       | Some best => Ok best
       end.
(** base_functions.py:174-201 / 258-285 with eval_index_on_ruleset=(i, ruleset): best_rule is unbound until a value >= 0 is seen *)
Definition prune_rule_on (metric : rule -> res (option Q)) (i : nat) (rs : list rule) (r : rule) : res (option rule) :=
  if rule_isempty r then Ok (Some r)
  else match nth_error rs i with
       | None => Err IndexError
       | Some x =>
           if negb (rule_eqb x r) then Err ValueError
           else y <- prune_loop metric r (length (conds r)) 0 None ;;
                match y with
                | None => Ok None
                | Some None => Err UnboundLocalError
                | Some (Some b) => Ok (Some b)
                end
       end.

(** ** Prune metrics from counts *)

(* an integer as a number *)
Definition zq (z : Z) : Q := inject_Z z.
(** irep.py:457-474 [_IREP_prune_metric], [_IREP_prune_metric_cn] *)
Definition irep_metric (P N p n : nat) : res (option Q) :=
  if P + N =? 0 then Err ZeroDivisionError
  else Ok (Some (zq (Z.of_nat p + (Z.of_nat N - Z.of_nat n)) / qn (P + N))%Q).
(** ripper.py:1202-1227 growphase metric *)
Definition ripper_grow_metric (p n : nat) : res (option Q) :=
  Ok (Some (zq (Z.of_nat p - Z.of_nat n + 1) / qn (p + n + 1))%Q).
(** base_functions.py:505-532 [_accuracy], [_rule_accuracy_cn] *)
Definition accuracy_metric (P N p n : nat) : res (option Q) :=
  if P + N =? 0 then Ok None
  else Ok (Some (zq (Z.of_nat p + (Z.of_nat N - Z.of_nat n)) / qn (P + N))%Q).
(** base_functions.py:457-484 [precision], [rule_precision_cn] *)
Definition precision_of (p n : nat) : option Q :=
  if p + n =? 0 then None else Some (qdiv p (p + n)).
(** irep.py:318, 429: [not prune_precision or prune_precision < 0.50] *)
Definition bad_precision (p : option Q) : bool :=
  match p with None => true | Some q => Qeq_bool q 0 || Qlt_b q (1#2) end.
