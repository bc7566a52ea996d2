(** * Rules.v : Cond, Rule, Ruleset (base.py), with the index checks of check.py and remove_duplicates of utils.py *)
From Verif Require Export Frame.

(** base.py:428-433 [Cond.__init__] *)
Record cond := mkcond { cfeat : pyval; cval : pyval }.

(** Class statistics attached to a Rule / Ruleset by recalibrate_proba
    (base_functions.py:338-340, 358-360): class_ns_, class_freqs_, smoothed_class_freqs_, each ordered (neg, pos). *)
Record stats := mkstats { st_ns : nat * nat; st_freqs : Q * Q; st_smooth : Q * Q }.

(** base.py:332-336 [Rule.__init__]; the statistics are absent until recalibrate_proba has run on the rule. *)
Record rule := mkrule { conds : list cond; rstats : option stats }.
(* base.py:332-336 [Rule(conds)]: no class statistics yet *)
Definition Rule_ (cs : list cond) : rule := mkrule cs None.

(** base.py:24-28 [Ruleset.__init__]; [rs_possible] is attribute possible_conds, [rs_uncov] the uncovered_* attributes,
    absent until set. *)
Record ruleset := mkruleset { rs_rules : list rule; rs_possible : option (list cond); rs_uncov : option stats }.
(* base.py:24-28 [Ruleset(rules)] *)
Definition Ruleset_ (rs : list rule) : ruleset := mkruleset rs None None.

(** base.py:435-436 [Cond.__str__] *)
Definition cond_str (c : cond) : str := py_str (cfeat c) ++ $"=" ++ py_str (cval c).

(** base.py:441-445 [Cond.__eq__] *)
Definition cond_eqb (a b : cond) : bool := py_eq (cfeat a) (cfeat b) && py_eq (cval a) (cval b).

(** base.py:450-452 [Cond.covers] *)
Definition cond_covers (c : cond) (fr : frame) : res frame := select_eq fr (cfeat c) (cval c).

(** base.py:379-384 [Rule.covers]; [df.head(len(df))] is df *)
Fixpoint conds_cover (cs : list cond) (fr : frame) : res frame :=
  match cs with
  | [] => Ok fr
  | c :: t => fr' <- cond_covers c fr ;; conds_cover t fr'
  end.
(* base.py:379-384 [Rule.covers]: the frame filtered by one condition after the other *)
Definition rule_covers (r : rule) (fr : frame) : res frame := conds_cover (conds r) fr.

(** base.py:386-387 *)
Definition rule_num_covered (r : rule) (fr : frame) : res nat :=
  c <- rule_covers r fr ;; Ok (length (frows c)).

(** base.py:376-377 *)
Definition rule_isempty (r : rule) : bool := match conds r with [] => true | _ => false end.

(** base.py:94-99 [isuniversal], 101-103 [isnull] *)
Definition rs_isuniversal (rs : list rule) : bool := existsb rule_isempty rs.
(* base.py:101-103 [Ruleset.isnull] *)
Definition rs_isnull (rs : list rule) : bool := match rs with [] => true | _ => false end.

(** base.py:116-129 [Ruleset.covers]: the covered rows of each rule, concatenated (no de-duplication) *)
Definition rs_covers (rs : list rule) (fr : frame) : res frame :=
  if rs_isuniversal rs then Ok fr
  else if rs_isnull rs then Ok (with_rows fr [])
  else parts <- mapM (fun r => rule_covers r fr) rs ;;
       Ok (with_rows fr (concat (map frows parts))).

(** base.py:136-138 *)
Definition rs_num_covered (rs : list rule) (fr : frame) : res nat :=
  c <- rs_covers rs fr ;; Ok (length (frows c)).

(** base.py:144-146 *)
Definition count_conds (rs : list rule) : nat := list_sum (map (fun r => length (conds r)) rs).

(** base.py:212-239 [Ruleset.predict] without reasons *)
Definition rs_predict (rs : list rule) (fr : frame) : res (list bool) :=
  c <- rs_covers rs fr ;;
  let covered := labels (frows c) in
  Ok (map (fun r => nmem (rlab r) covered) (frows fr)).

(** base.py:245-250: the reasons of one example; the example is the frame of all rows carrying the label *)
Fixpoint reasons_for (rs : list rule) (example : frame) : res (list rule) :=
  match rs with
  | [] => Ok []
  | r :: t =>
      n <- rule_num_covered r example ;;
      rest <- reasons_for t example ;;
      Ok (if n =? 1 then r :: rest else rest)
  end.
(** base.py:240-252 [Ruleset.predict] with give_reasons=True *)
Definition rs_predict_reasons (rs : list rule) (fr : frame) : res (list bool * list (list rule)) :=
  preds <- rs_predict rs fr ;;
  reasons <- mapM (fun ip : nat * bool =>
                     let '(i, p) := ip in
                     if p then reasons_for rs (with_rows fr (filter (fun r => Nat.eqb (rlab r) i) (frows fr)))
                     else Ok [])
                  (combine (labels (frows fr)) preds) ;;
  Ok (preds, reasons).

(** base.py:361-368 [Rule.__eq__]: same number of conditions and same set of condition strings *)
Definition cond_strs (r : rule) : list str := map cond_str (conds r).
(* base.py:365-368: comparison of the two sets of condition texts *)
Definition subset_strs (a b : list str) : bool := forallb (fun s => str_in s b) a.
(* base.py:361-368 [Rule.__eq__] *)
Definition rule_eqb (a b : rule) : bool :=
  (length (conds a) =? length (conds b))
  && subset_strs (cond_strs a) (cond_strs b) && subset_strs (cond_strs b) (cond_strs a).

(** base.py:370-371 [Rule.__hash__]: hash of the sorted tuple of condition strings; [H] is Python's tuple hash (any function) *)
Fixpoint str_leb (a b : str) : bool :=
  match a, b with
  | [], _ => true
  | _ :: _, [] => false
  | x :: a', y :: b' => if Ascii.eqb x y then str_leb a' b' else nat_of_ascii x <? nat_of_ascii y
  end.
(* base.py:370-371: [sorted] of the condition texts *)
Fixpoint insert_str (s : str) (l : list str) : list str :=
  match l with
  | [] => [s]
  | x :: t => if str_leb s x then s :: l else x :: insert_str s t
  end.
(* base.py:370-371: [sorted] of the condition texts *)
Definition sort_strs (l : list str) : list str := fold_right insert_str [] l.
(* base.py:370-371 [Rule.__hash__] *)
Definition rule_hash (H : list str -> Z) (r : rule) : Z := H (sort_strs (cond_strs r)).

(** [r in list_of_rules] *)
(* base.py:61-78, check.py:93-99: [rule in rules] *)
Definition rule_in (r : rule) (l : list rule) : bool := existsb (fun x => rule_eqb x r) l.

(** base.py:61-78 [Ruleset.__eq__] (both arguments Rulesets) *)
Definition rs_eqb (a b : list rule) : bool :=
  forallb (fun r => rule_in r b) a && forallb (fun r => rule_in r a) b.

(** utils.py:15-25 [remove_duplicates] on rules: membership in a Python set needs equal hash and equality *)
Definition in_set (H : list str -> Z) (seen : list rule) (r : rule) : bool :=
  existsb (fun x => (rule_hash H x =? rule_hash H r)%Z && rule_eqb x r) seen.
(* utils.py:15-25: the loop of remove_duplicates *)
Fixpoint remove_dups_from (H : list str -> Z) (seen l : list rule) : list rule :=
  match l with
  | [] => []
  | r :: t => if in_set H seen r then remove_dups_from H seen t
              else r :: remove_dups_from H (seen ++ [r]) t
  end.
(* utils.py:15-25 [remove_duplicates] *)
Definition remove_duplicates (H : list str -> Z) (l : list rule) : list rule := remove_dups_from H [] l.

(** base.py:172-176 [trim_conds]: pop the last rule while there are too many conditions.
    [trim_rev] works on the reversed list, so [pop(-1)] is taking the tail. *)
Fixpoint trim_rev (m : Z) (rev_rules : list rule) : list rule :=
  match rev_rules with
  | [] => []
  | _ :: t => if (m <? Z.of_nat (count_conds rev_rules))%Z then trim_rev m t else rev_rules
  end.
(* base.py:172-176 [Ruleset.trim_conds] *)
Definition trim_conds (m : option Z) (rs : list rule) : list rule :=
  match m with None => rs | Some k => rev (trim_rev k (rev rs)) end.

(** base.py:316-326 [get_selected_features] *)
Definition selected_features (rs : list rule) : list pyval :=
  dedup_by py_eq [] (flat_map (fun r => map cfeat (conds r)) rs).

(** base.py:148-156 [get_conds] *)
Definition get_conds (rs : list rule) : list cond :=
  fold_left (fun acc r =>
    acc ++ filter (fun c => negb (existsb (fun d => cond_eqb d c) acc)) (conds r)) rs [].

(** ** Editing (base.py:181-210 with check.py:87-99) *)

(** check.py:87-91 [_check_valid_index] *)
Definition check_index (i : Z) (rs : list rule) : res nat :=
  if ((i <? 0) || (Z.of_nat (length rs) <=? i))%Z then Err IndexError else Ok (Z.to_nat i).

(** check.py:93-99 [_check_rule_exists] then [rules.index(rule)]: position of the first equal rule *)
Fixpoint index_of (r : rule) (rs : list rule) : option nat :=
  match rs with
  | [] => None
  | x :: t => if rule_eqb x r then Some 0 else option_map S (index_of r t)
  end.
(* check.py:93-99 [_check_rule_exists] and [list.index], base.py:189-192, 198-201, 207-210 *)
Definition find_rule (r : rule) (rs : list rule) : res nat :=
  match index_of r rs with Some i => Ok i | None => Err ValueError end.

(** base.py:181-183 *)
Definition rs_add (r : rule) (rs : list rule) : list rule := rs ++ [r].
(** base.py:185-187 *)
Definition rs_remove (i : Z) (rs : list rule) : res (list rule) :=
  n <- check_index i rs ;; Ok (remove_nth n rs).
(** base.py:189-192 *)
Definition rs_remove_rule (old : rule) (rs : list rule) : res (list rule) :=
  n <- find_rule old rs ;; rs_remove (Z.of_nat n) rs.
(** base.py:194-196 *)
Definition rs_insert (i : Z) (r : rule) (rs : list rule) : res (list rule) :=
  n <- check_index i rs ;; Ok (firstn n rs ++ r :: skipn n rs).
(** base.py:198-201 *)
Definition rs_insert_rule (before r : rule) (rs : list rule) : res (list rule) :=
  n <- find_rule before rs ;; rs_insert (Z.of_nat n) r rs.
(* base.py:203-205: self.rules[index] = new_rule *)
Fixpoint set_nth {A} (n : nat) (v : A) (l : list A) : list A :=
  match l, n with
  | [], _ => []
  | _ :: t, O => v :: t
  | x :: t, S k => x :: set_nth k v t
  end.
(** base.py:203-205 *)
Definition rs_replace (i : Z) (r : rule) (rs : list rule) : res (list rule) :=
  n <- check_index i rs ;; Ok (set_nth n r rs).
(** base.py:207-210 *)
Definition rs_replace_rule (old r : rule) (rs : list rule) : res (list rule) :=
  n <- find_rule old rs ;; rs_replace (Z.of_nat n) r rs.

(** base.py:158-170 [_update_possible_conds]: for each feature, the values occurring both among positives and negatives,
    in the iteration order of a Python set ([set_order], any permutation). [set(neg) - set(possible_conds)] subtracts Cond
    objects from a set of cell values, which removes nothing (a Cond equals no cell value). *)
Definition shared_values (f : pyval) (pos neg : frame) : list pyval :=
  filter (fun v => existsb (fun w => py_eq w v) (unique (column neg f))) (unique (column pos f)).
(* base.py:158-170 [_update_possible_conds] *)
Definition update_possible_conds (set_order : list pyval -> list pyval) (old : list cond) (pos neg : frame) : list cond :=
  old ++ flat_map (fun f => map (mkcond f) (set_order (shared_values f pos neg))) (fcols pos).

(** base.py:397-414 [Rule.successors] with possible_conds given *)
Definition successors (r : rule) (possible : list cond) : list rule :=
  map (fun c => Rule_ (conds r ++ [c]))
      (filter (fun c => negb (existsb (fun d => cond_eqb d c) (conds r))) possible).
(** base.py:415-425 [Rule.successors] with possible_conds = None *)
Definition successors_none (set_order : list pyval -> list pyval) (r : rule) (pos neg : frame) : list rule :=
  flat_map (fun f =>
    flat_map (fun v => if existsb (fun c => py_eq (cfeat c) f) (conds r) then []
                       else [Rule_ (conds r ++ [mkcond f v])])
             (set_order (shared_values f pos neg))) (fcols pos).

(** base.py:43-59 [truncstr] on the rule list: which rules are printed ([None] = ValueError) *)
Definition trunc_rules (limit : Z) (left_ right_ : bool) (rs : list rule) : res (list rule) :=
  if (limit <? Z.of_nat (length rs))%Z
  then if left_ then Ok (take limit rs)
       else if right_ then Ok (drop (- limit) rs) else Err ValueError
  else Ok rs.
