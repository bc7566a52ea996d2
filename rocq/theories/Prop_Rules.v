(** * Prop_Rules.v : rule equality, hashing, editing, duplicates, trimming (C08-C10, C13-C15) *)
From Verif Require Import RuleFacts Demo.

(** C08 *)
Theorem C08_rule_eq_equivalence :
  (forall a, rule_eqb a a = true) /\ (forall a b, rule_eqb a b = rule_eqb b a) /\
  (forall a b c, rule_eqb a b = true -> rule_eqb b c = true -> rule_eqb a c = true) /\
  (forall a b, Permutation (conds a) (conds b) -> rule_eqb a b = true).
Proof. exact (conj rule_eqb_refl (conj rule_eqb_sym (conj rule_eqb_trans rule_eqb_perm))). Qed.
Print Assumptions C08_rule_eq_equivalence.
Theorem C08_ruleset_eq_equivalence :
  (forall a, rs_eqb a a = true) /\ (forall a b, rs_eqb a b = rs_eqb b a) /\
  (forall a b c, rs_eqb a b = true -> rs_eqb b c = true -> rs_eqb a c = true) /\
  (forall a b, incl a b -> incl b a -> rs_eqb a b = true).
Proof. exact (conj rs_eqb_refl (conj rs_eqb_sym (conj rs_eqb_trans rs_eqb_incl))). Qed.
Print Assumptions C08_ruleset_eq_equivalence.
(** and what equality means exactly *)
Theorem C08_rule_eq_means : forall a b, rule_eqb a b = true <->
  length (conds a) = length (conds b) /\ incl (map cond_str (conds a)) (map cond_str (conds b)) /\
  incl (map cond_str (conds b)) (map cond_str (conds a)).
Proof. exact rule_eqb_iff. Qed.
Print Assumptions C08_rule_eq_means.
Theorem C08_ruleset_eq_means : forall a b, rs_eqb a b = true <->
  (forall r, In r a -> exists x, In x b /\ rule_eqb x r = true) /\ (forall r, In r b -> exists x, In x a /\ rule_eqb x r = true).
Proof. exact rs_eqb_iff. Qed.
Print Assumptions C08_ruleset_eq_means.
Example C08_nonvacuous : rule_eqb (Rule_ [c_ "a" "1"; c_ "b" "2"]) (Rule_ [c_ "b" "2"; c_ "a" "1"]) = true /\
  rule_eqb (Rule_ [c_ "a" "1"; c_ "b" "2"]) (Rule_ [c_ "a" "1"; c_ "b" "3"]) = false /\
  rs_eqb [Rule_ [c_ "a" "1"]; Rule_ [c_ "b" "2"]] [Rule_ [c_ "b" "2"]; Rule_ [c_ "a" "1"]; Rule_ [c_ "b" "2"]] = true.
Proof. repeat split; vm_compute; reflexivity. Qed.

(** C09. False: [a;a;b] == [a;b;b] but the hashes are those of different tuples: they differ for every injective tuple hash. *)
Theorem C09_equal_rules_hash_refuted :
  exists r1 r2, rule_eqb r1 r2 = true /\
    forall H, (forall x y, H x = H y -> x = y) -> rule_hash H r1 <> rule_hash H r2.
Proof.
  exists (Rule_ [c_ "a" "1"; c_ "a" "1"; c_ "b" "2"]), (Rule_ [c_ "a" "1"; c_ "b" "2"; c_ "b" "2"]).
  split; [vm_compute; reflexivity|]. intros H Hi E. apply Hi in E. vm_compute in E. discriminate.
Qed.
Print Assumptions C09_equal_rules_hash_refuted.
(** True for every hash function when no condition is repeated within a rule; reordering conditions is always harmless. *)
Theorem C09_equal_rules_hash_partial : forall H r1 r2,
  rule_eqb r1 r2 = true -> NoDup (cond_strs r1) -> NoDup (cond_strs r2) -> rule_hash H r1 = rule_hash H r2.
Proof. exact hash_of_equal. Qed.
Print Assumptions C09_equal_rules_hash_partial.
Theorem C09_permuted_rules_hash : forall H r1 r2, Permutation (conds r1) (conds r2) -> rule_hash H r1 = rule_hash H r2.
Proof. exact hash_of_permuted. Qed.
Print Assumptions C09_permuted_rules_hash.
Example C09_nonvacuous : NoDup (cond_strs (Rule_ [c_ "a" "1"; c_ "b" "2"])) /\ NoDup (cond_strs (Rule_ [c_ "b" "2"; c_ "a" "1"])).
Proof. split; vm_compute; repeat constructor; cbn; intuition; discriminate. Qed.

(** C10. False: equality compares printed conditions, so 1 and "1" (or "a" = "b=c" and "a=b" = "c") are confused. *)
Theorem C10_equal_rules_cover_refuted :
  (exists r1 r2 fr, good_frame fr /\ distinct_labels fr /\ features_present fr [r1; r2] /\ rule_eqb r1 r2 = true /\
     rs_predict [r1] fr = Ok [true] /\ rs_predict [r2] fr = Ok [false]) /\
  (exists r1 r2 fr, good_frame fr /\ distinct_labels fr /\ features_present fr [r1; r2] /\ rule_eqb r1 r2 = true /\
     (forall c, In c (conds r1 ++ conds r2) -> exists f v, cfeat c = PStr f /\ cval c = PStr v) /\
     rs_predict [r1] fr = Ok [true] /\ rs_predict [r2] fr = Ok [false]).
Proof.
  split.
  - exists (Rule_ [mkcond (s_ "x") (PInt 1)]), (Rule_ [c_ "x" "1"]), (mkframe [s_ "x"] [mkrow 0 [PInt 1]]).
    split; [apply good_frameb_ok; reflexivity|]. split; [unfold distinct_labels; cbn; repeat constructor; auto|].
    split; [apply all_present_iff; reflexivity|]. repeat split; vm_compute; reflexivity.
  - exists (Rule_ [c_ "a" "b=c"]), (Rule_ [c_ "a=b" "c"]), (mkframe [s_ "a"; s_ "a=b"] [mkrow 0 [s_ "b=c"; s_ "d"]]).
    split; [apply good_frameb_ok; reflexivity|]. split; [unfold distinct_labels; cbn; repeat constructor; auto|].
    split; [apply all_present_iff; reflexivity|]. split; [vm_compute; reflexivity|].
    split; [|split; vm_compute; reflexivity].
    intros c [<-|[<-|[]]]; eexists _, _; split; reflexivity.
Qed.
Print Assumptions C10_equal_rules_cover_refuted.
(** True when conditions that print alike are equal; in particular when all values are text and no feature name contains "=". *)
Theorem C10_equal_rules_cover_partial : forall r1 r2 fr,
  rule_eqb r1 r2 = true -> str_faithful (conds r1) (conds r2) -> rule_covers r1 fr = rule_covers r2 fr.
Proof. exact equal_rules_cover_same. Qed.
Print Assumptions C10_equal_rules_cover_partial.
Theorem C10_equal_rulesets_predict_partial : forall rs1 rs2 fr,
  rs_eqb rs1 rs2 = true -> str_faithful (all_conds rs1) (all_conds rs2) -> rs_predict rs1 fr = rs_predict rs2 fr.
Proof. exact equal_rulesets_predict_same. Qed.
Print Assumptions C10_equal_rulesets_predict_partial.
Theorem C10_plain_text_is_faithful : forall cs ds,
  (forall c, In c cs -> plain_cond c) -> (forall d, In d ds -> plain_cond d) -> str_faithful cs ds.
Proof. exact plain_faithful. Qed.
Print Assumptions C10_plain_text_is_faithful.
Example C10_nonvacuous : forall c, In c (all_conds [Rule_ [c_ "a" "1"; c_ "b" "2"]; Rule_ [c_ "b" "x=y"]]) -> plain_cond c.
Proof. intros c [<-|[<-|[<-|[]]]]; eexists _, _; (split; [reflexivity|split; [reflexivity|vm_compute; intuition; discriminate]]). Qed.

(** C13. Editing is list editing. [at_pos i rs a x b]: rs = a ++ x :: b with x at index i. *)
Theorem C13_edit_at_index : forall i r rs,
  (forall a x b, at_pos i rs a x b ->
     rs_remove i rs = Ok (a ++ b) /\ rs_insert i r rs = Ok (a ++ r :: x :: b) /\ rs_replace i r rs = Ok (a ++ r :: b)) /\
  ((0 <= i < Z.of_nat (length rs))%Z -> exists a x b, at_pos i rs a x b) /\
  ((i < 0 \/ Z.of_nat (length rs) <= i)%Z ->
     rs_remove i rs = Err IndexError /\ rs_insert i r rs = Err IndexError /\ rs_replace i r rs = Err IndexError) /\
  rs_add r rs = rs ++ [r].
Proof.
  exact (fun i r rs => conj (fun a x b H => conj (proj1 (remove_at_spec i rs) a x b H)
      (conj (proj1 (insert_at_spec i r rs) a x b H) (proj1 (replace_at_spec i r rs) a x b H)))
    (conj (at_pos_exists i rs)
    (conj (fun H => conj (proj2 (remove_at_spec i rs) H) (conj (proj2 (insert_at_spec i r rs) H) (proj2 (replace_at_spec i r rs) H)))
    eq_refl))).
Qed.
Print Assumptions C13_edit_at_index.
Theorem C13_edit_by_value : forall old r rs,
  (forall a x b, first_equal old rs a x b ->
     rs_remove_rule old rs = Ok (a ++ b) /\ rs_insert_rule old r rs = Ok (a ++ r :: x :: b) /\
     rs_replace_rule old r rs = Ok (a ++ r :: b)) /\
  ((forall y, In y rs -> rule_eqb y old = false) ->
     rs_remove_rule old rs = Err ValueError /\ rs_insert_rule old r rs = Err ValueError /\ rs_replace_rule old r rs = Err ValueError).
Proof. exact by_value_spec. Qed.
Print Assumptions C13_edit_by_value.
Theorem C13_by_value_cases : forall old rs,
  (exists a x b, first_equal old rs a x b) \/ (forall y, In y rs -> rule_eqb y old = false).
Proof. exact first_equal_cases. Qed.
Print Assumptions C13_by_value_cases.
Example C13_nonvacuous : rs_insert 1 (Rule_ [c_ "n" "1"]) demo_rules =
  Ok [nth 0 demo_rules (Rule_ []); Rule_ [c_ "n" "1"]; nth 1 demo_rules (Rule_ []); nth 2 demo_rules (Rule_ [])] /\
  rs_insert 3 (Rule_ []) demo_rules = Err IndexError /\
  rs_remove_rule (Rule_ [c_ "wind" "weak"; c_ "outlook" "sunny"]) demo_rules = Ok (tl demo_rules).
Proof. repeat split; vm_compute; reflexivity. Qed.

(** C14. Duplicate removal, for every hash function. *)
Theorem C14_remove_duplicates : forall H l,
  first_occurrences (fun x r => rule_hash H x = rule_hash H r /\ rule_eqb x r = true) [] l (remove_duplicates H l).
Proof. exact remove_duplicates_first. Qed.
Print Assumptions C14_remove_duplicates.
Theorem C14_remove_duplicates_facts : forall H l,
  sublist (remove_duplicates H l) l /\
  (forall r, In r l -> exists x, In x (remove_duplicates H l) /\ rule_eqb x r = true) /\
  (forall p r q, remove_duplicates H l = p ++ r :: q -> forall x, In x p -> ~ (rule_hash H x = rule_hash H r /\ rule_eqb x r = true)).
Proof. exact remove_duplicates_facts. Qed.
Print Assumptions C14_remove_duplicates_facts.
Theorem C14_remove_duplicates_predict : forall H rs fr,
  (forall x r, In x rs -> In r rs -> rule_eqb x r = true -> forall fr', rule_covers x fr' = rule_covers r fr') ->
  good_frame fr -> features_present fr rs ->
  rs_predict (remove_duplicates H rs) fr = rs_predict rs fr.
Proof. exact remove_duplicates_predict. Qed.
Print Assumptions C14_remove_duplicates_predict.
Example C14_nonvacuous : remove_duplicates (fun l => Z.of_nat (length l))
    [Rule_ [c_ "a" "1"; c_ "b" "2"]; Rule_ [c_ "c" "3"]; Rule_ [c_ "b" "2"; c_ "a" "1"]] =
  [Rule_ [c_ "a" "1"; c_ "b" "2"]; Rule_ [c_ "c" "3"]].
Proof. vm_compute; reflexivity. Qed.

(** C15. trim_conds: the longest prefix within the limit. *)
Theorem C15_trim_longest_prefix : forall m rs, (0 <= m)%Z ->
  prefix (trim_conds (Some m) rs) rs /\ (Z.of_nat (count_conds (trim_conds (Some m) rs)) <= m)%Z /\
  (forall p, prefix p rs -> (Z.of_nat (count_conds p) <= m)%Z -> length p <= length (trim_conds (Some m) rs)).
Proof. exact trim_conds_spec. Qed.
Print Assumptions C15_trim_longest_prefix.
Theorem C15_trim_none : forall rs, trim_conds None rs = rs.
Proof. exact trim_none. Qed.
Print Assumptions C15_trim_none.
Example C15_nonvacuous : trim_conds (Some 3%Z) demo_rules = firstn 2 demo_rules /\ count_conds demo_rules = 4.
Proof. split; vm_compute; reflexivity. Qed.
