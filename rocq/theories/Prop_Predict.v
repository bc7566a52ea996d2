(** * Prop_Predict.v : coverage and prediction (C01-C07) *)
From Verif Require Import CoverFacts Demo.

(** C01. predict is the DNF of the rules: one boolean per row, in row order (Forall2), true exactly when some rule has all its
    conditions satisfied by the row. *)
Theorem C01_predict_is_dnf : forall rs fr,
  good_frame fr -> distinct_labels fr -> features_present fr rs ->
  exists preds, rs_predict rs fr = Ok preds /\
    Forall2 (fun rw p => p = true <-> sat_ruleset (fcols fr) rw rs) (frows fr) preds.
Proof. exact predict_is_dnf. Qed.
Print Assumptions C01_predict_is_dnf.
Theorem C01_empty_rule_predicts_all : forall rs fr r,
  In r rs -> conds r = [] -> rs_predict rs fr = Ok (map (fun _ => true) (frows fr)).
Proof. exact predict_empty_rule. Qed.
Print Assumptions C01_empty_rule_predicts_all.
Theorem C01_empty_ruleset_predicts_none : forall fr, rs_predict [] fr = Ok (map (fun _ => false) (frows fr)).
Proof. exact predict_empty_ruleset. Qed.
Print Assumptions C01_empty_ruleset_predicts_none.
Example C01_nonvacuous : good_frame demo /\ distinct_labels demo /\ features_present demo demo_rules /\
  rs_predict demo_rules demo = Ok [true; true; false].
Proof. split; [exact demo_good|]. split; [exact demo_labels|]. split; [exact demo_present|]. vm_compute; reflexivity. Qed.

(** C02. The full claim (any relabelling) is false: two rows sharing a label share their prediction. *)
Definition dup_fr (l1 l2 : nat) : frame := mkframe [s_ "a"] [mkrow l1 [s_ "x"]; mkrow l2 [s_ "y"]].
Theorem C02_predict_depends_on_labels_refuted :
  exists rs fr fr', good_frame fr /\ good_frame fr' /\ same_cells fr fr' /\ features_present fr rs /\
    rs_predict rs fr = Ok [true; false] /\ rs_predict rs fr' = Ok [true; true].
Proof.
  exists [Rule_ [c_ "a" "x"]], (dup_fr 0 1), (dup_fr 0 0).
  split; [apply good_frameb_ok; reflexivity|]. split; [apply good_frameb_ok; reflexivity|].
  split; [split; reflexivity|]. split; [apply all_present_iff; reflexivity|]. split; vm_compute; reflexivity.
Qed.
Print Assumptions C02_predict_depends_on_labels_refuted.
(** What holds: labels do not matter as long as they are pairwise distinct. Missing: repeated labels (refuted above). *)
Theorem C02_predict_relabel_partial : forall rs fr fr',
  same_cells fr fr' -> distinct_labels fr -> distinct_labels fr' -> rs_predict rs fr = rs_predict rs fr'.
Proof. exact predict_relabel. Qed.
Print Assumptions C02_predict_relabel_partial.
(** With repeated labels, exactly: True when some row carrying the same label satisfies some rule. *)
Theorem C02_predict_by_label : forall rs fr, good_frame fr -> features_present fr rs ->
  exists preds, rs_predict rs fr = Ok preds /\
    Forall2 (fun rw p => p = true <->
               exists rw', In rw' (frows fr) /\ rlab rw' = rlab rw /\ sat_ruleset (fcols fr) rw' rs) (frows fr) preds.
Proof. exact predict_by_label. Qed.
Print Assumptions C02_predict_by_label.
Example C02_nonvacuous : same_cells demo (mkframe (fcols demo) (map (fun r => mkrow (rlab r + 7) (rcells r)) (frows demo))) /\
  distinct_labels demo /\ distinct_labels (mkframe (fcols demo) (map (fun r => mkrow (rlab r + 7) (rcells r)) (frows demo))).
Proof. split; [split; reflexivity|]. split; [exact demo_labels|]. unfold distinct_labels; cbn. repeat constructor; cbn; intuition; discriminate. Qed.

(** C03. give_reasons: exactly the covering rules in order; empty exactly for rows predicted False; same predictions. *)
Theorem C03_reasons_exact : forall rs fr,
  good_frame fr -> distinct_labels fr -> features_present fr rs ->
  exists preds reasons, rs_predict_reasons rs fr = Ok (preds, reasons) /\
    rs_predict rs fr = Ok preds /\
    Forall2 (fun rw rr => picks (sat_rule (fcols fr) rw) rs rr) (frows fr) reasons /\
    Forall2 (fun p rr => p = false <-> rr = []) preds reasons.
Proof. exact reasons_exact. Qed.
Print Assumptions C03_reasons_exact.
Example C03_nonvacuous : rs_predict_reasons demo_rules demo =
  Ok ([true; true; false], [[nth 0 demo_rules (Rule_ [])]; [nth 1 demo_rules (Rule_ []); nth 2 demo_rules (Rule_ [])]; []]).
Proof. vm_compute; reflexivity. Qed.

(** C04. Rule.covers: exactly the satisfying rows in order; order and repetition of conditions are irrelevant; more conditions cover
    less; covering is idempotent. *)
Theorem C04_covers_exact : forall r fr, good_frame fr -> features_present fr [r] ->
  exists fr', rule_covers r fr = Ok fr' /\ fcols fr' = fcols fr /\
    picks (fun rw => sat_rule (fcols fr) rw r) (frows fr) (frows fr').
Proof. exact rule_covers_exact. Qed.
Print Assumptions C04_covers_exact.
Theorem C04_covers_condition_order : forall r r' fr,
  incl (conds r) (conds r') -> incl (conds r') (conds r) -> rule_covers r fr = rule_covers r' fr.
Proof. exact rule_covers_same_conds. Qed.
Print Assumptions C04_covers_condition_order.
Theorem C04_covers_append : forall r cs fr fr1 fr2,
  rule_covers (Rule_ (conds r ++ cs)) fr = Ok fr2 -> rule_covers r fr = Ok fr1 -> sublist (frows fr2) (frows fr1).
Proof. exact rule_covers_append. Qed.
Print Assumptions C04_covers_append.
Theorem C04_covers_idempotent : forall r fr fr1, rule_covers r fr = Ok fr1 -> rule_covers r fr1 = Ok fr1.
Proof. exact rule_covers_twice. Qed.
Print Assumptions C04_covers_idempotent.
Example C04_nonvacuous : rule_covers (Rule_ [c_ "outlook" "sunny"]) demo =
    Ok (mkframe (fcols demo) [nth 0 (frows demo) (mkrow 0 []); nth 2 (frows demo) (mkrow 0 [])]) /\
  rule_covers (Rule_ ([c_ "outlook" "sunny"] ++ [c_ "wind" "weak"])) demo = Ok (mkframe (fcols demo) [nth 0 (frows demo) (mkrow 0 [])]).
Proof. split; vm_compute; reflexivity. Qed.

(** C05. False: a row covered by two rules is returned (and counted) twice. *)
Theorem C05_covers_counts_twice_refuted :
  exists rs fr, good_frame fr /\ distinct_labels fr /\ features_present fr rs /\
    length (frows fr) = 3 /\ rs_num_covered rs fr = Ok 5.
Proof.
  exists [Rule_ [c_ "outlook" "sunny"]; Rule_ [c_ "wind" "strong"]; Rule_ [c_ "outlook" "rain"]], demo.
  split; [exact demo_good|]. split; [exact demo_labels|]. split; [apply all_present_iff; reflexivity|]. split; vm_compute; reflexivity.
Qed.
Print Assumptions C05_covers_counts_twice_refuted.
(** What holds: a row appears once per covering rule (so not fewer times than once if covered), the count is the sum over the rules,
    never less than the number of covered rows, and equal to it when no row satisfies two rules. *)
Theorem C05_multiplicity : forall rs fr c rw k, good_frame fr -> distinct_labels fr -> rs_isuniversal rs = false ->
  rs_covers rs fr = Ok c -> In rw (frows fr) ->
  (exists rr, picks (sat_rule (fcols fr) rw) rs rr /\ length rr = k) ->
  count_occ Nat.eq_dec (labels (frows c)) (rlab rw) = k.
Proof. exact covers_multiplicity. Qed.
Print Assumptions C05_multiplicity.
Theorem C05_num_covered_at_least : forall rs fr n covered, good_frame fr -> features_present fr rs ->
  rs_num_covered rs fr = Ok n -> picks (fun rw => sat_ruleset (fcols fr) rw rs) (frows fr) covered -> length covered <= n.
Proof. exact num_covered_ge. Qed.
Print Assumptions C05_num_covered_at_least.
Theorem C05_num_covered_disjoint_partial : forall rs fr n covered,
  good_frame fr -> distinct_labels fr -> features_present fr rs ->
  (forall rw rr, In rw (frows fr) -> picks (sat_rule (fcols fr) rw) rs rr -> length rr <= 1) ->
  rs_num_covered rs fr = Ok n -> picks (fun rw => sat_ruleset (fcols fr) rw rs) (frows fr) covered -> n = length covered.
Proof. exact num_covered_disjoint. Qed.
Print Assumptions C05_num_covered_disjoint_partial.

(** C06. A missing feature is never ignored. *)
Theorem C06_missing_feature : forall rs fr, ~ features_present fr rs ->
  rs_predict rs fr = Err KeyError \/
  ((exists r, In r rs /\ conds r = []) /\ rs_predict rs fr = Ok (map (fun _ => true) (frows fr))).
Proof. exact predict_missing. Qed.
Print Assumptions C06_missing_feature.
Theorem C06_success_means_present : forall rs fr preds,
  rs_predict rs fr = Ok preds -> (forall r, In r rs -> conds r <> []) -> features_present fr rs.
Proof. exact predict_ok_present. Qed.
Print Assumptions C06_success_means_present.
Theorem C06_reasons_missing_feature : forall rs fr,
  ~ features_present fr rs -> frows fr <> [] -> rs_predict_reasons rs fr = Err KeyError.
Proof. exact reasons_missing. Qed.
Print Assumptions C06_reasons_missing_feature.
Example C06_nonvacuous : ~ features_present demo [Rule_ [c_ "nope" "1"]] /\ rs_predict [Rule_ [c_ "nope" "1"]] demo = Err KeyError.
Proof. split; [rewrite <- all_present_iff; discriminate|reflexivity]. Qed.

(** C07. Columns no rule mentions are irrelevant (added, dropped, reordered or changed). *)
Theorem C07_other_columns_irrelevant : forall rs fr fr',
  distinct_cols (fcols fr) -> distinct_cols (fcols fr') ->
  (forall f, mentions rs f -> (column_present fr f <-> column_present fr' f)) ->
  Forall2 (agree_on rs (fcols fr) (fcols fr')) (frows fr) (frows fr') ->
  rs_predict rs fr = rs_predict rs fr' /\ rs_predict_reasons rs fr = rs_predict_reasons rs fr'.
Proof. exact predict_ignores_other_columns. Qed.
Print Assumptions C07_other_columns_irrelevant.
Definition demo2 : frame := (* columns reordered, one added, one (temp) dropped *)
  mkframe [s_ "wind"; s_ "extra"; s_ "outlook"]
    [ mkrow 10 [s_ "weak"; PInt 1; s_ "sunny"]; mkrow 11 [s_ "strong"; PInt 2; s_ "rain"]; mkrow 12 [s_ "strong"; PInt 3; s_ "sunny"] ].
Definition demo_rules2 : list rule := [Rule_ [c_ "outlook" "sunny"; c_ "wind" "weak"]].
Lemma demo2_agree : Forall2 (agree_on demo_rules2 (fcols demo) (fcols demo2)) (frows demo) (frows demo2).
Proof.
  assert (G : good_frame demo2) by (apply good_frameb_ok; reflexivity).
  assert (A : forall rw rw', rlab rw = rlab rw' -> (forall f, mentions demo_rules2 f -> cell (fcols demo) f rw = cell (fcols demo2) f rw') ->
    agree_on demo_rules2 (fcols demo) (fcols demo2) rw rw').
  { intros; apply agree_cells; auto; [apply demo_good|apply G]. }
  unfold demo, demo2. cbn [frows]. repeat (apply Forall2_cons; [apply A; [reflexivity|]; intros f (r & c & [<-|[]] & [<-|[<-|[]]] & ->); reflexivity|]).
  apply Forall2_nil.
Qed.
Example C07_nonvacuous : features_present demo demo_rules2 /\ features_present demo2 demo_rules2 /\
  Forall2 (agree_on demo_rules2 (fcols demo) (fcols demo2)) (frows demo) (frows demo2) /\
  rs_predict demo_rules2 demo2 = Ok [true; false; false].
Proof. split; [apply all_present_iff; reflexivity|]. split; [apply all_present_iff; reflexivity|]. split; [exact demo2_agree|reflexivity]. Qed.
