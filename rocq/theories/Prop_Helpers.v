(** * Prop_Helpers.v : splits, partitions, helpers, the CatNap index, scores (C16-C20, C45) *)
From Verif Require Import ScoreFacts Demo.

(** a concrete environment: no shuffling, exact floor *)
Definition env0 : env := mkenv (fun _ l => l) (fun s n => ((Qnum s * Z.of_nat n) / Zpos (Qden s))%Z) (fun l => l) (fun l => Z.of_nat (length l)).

(** C16 *)
Theorem C16_split_partition : forall e t size l a b, env_ok e -> (0 <= size)%Q -> (size <= 1)%Q ->
  random_split e t size l = (a, b) ->
  Permutation (a ++ b) l /\ Z.of_nat (length a) = e_split e size (length l).
Proof. exact random_split_spec. Qed.
Print Assumptions C16_split_partition.
Theorem C16_second_part_nonempty : forall e t size l a b, env_ok e -> (0 <= size)%Q -> (size < 1)%Q -> l <> [] ->
  random_split e t size l = (a, b) -> b <> [].
Proof. exact random_split_second. Qed.
Print Assumptions C16_second_part_nonempty.
Theorem C16_df_split_partition : forall e t size rs a b, env_ok e -> (0 <= size)%Q -> (size <= 1)%Q -> NoDup (labels rs) ->
  df_shuffled_split e t size rs = (a, b) ->
  Permutation (a ++ b) rs /\ Z.of_nat (length a) = e_split e size (length rs).
Proof. exact df_split_spec. Qed.
Print Assumptions C16_df_split_partition.
Theorem C16_df_second_part_nonempty : forall e t size rs a b, env_ok e -> (0 <= size)%Q -> (size < 1)%Q ->
  NoDup (labels rs) -> rs <> [] -> df_shuffled_split e t size rs = (a, b) -> b <> [].
Proof. exact df_split_second. Qed.
Print Assumptions C16_df_second_part_nonempty.
Lemma env0_ok : env_ok env0.
Proof.
  assert (D : forall s : Q, (0 < Zpos (Qden s))%Z) by reflexivity.
  constructor.
  - intros. apply Permutation_refl.
  - intros s n H H0. cbn [e_split env0]. specialize (D s). unfold Qle in H, H0. cbn [Qnum Qden] in H, H0.
    split.
    + apply Z.div_pos; [nia|exact D].
    + apply Z.div_le_upper_bound; [exact D|nia].
  - intros s n H. cbn [e_split env0]. specialize (D s). unfold Qeq in H. cbn [Qnum Qden] in H.
    replace (Qnum s) with (Zpos (Qden s)) by lia. rewrite Z.mul_comm. apply Z.div_mul. lia.
  - intros s n H H0 H1. cbn [e_split env0]. specialize (D s). unfold Qlt, Qle in *. cbn [Qnum Qden] in *.
    apply Z.div_lt_upper_bound; nia.
  - intros. apply Permutation_refl.
Qed.
Example C16_nonvacuous : env_ok env0 /\ random_split env0 0 (2#3) [4;5;6;7] = ([4;5], [6;7]).
Proof. split; [exact env0_ok|reflexivity]. Qed.

(** C17 *)
Theorem C17_pos_neg_partition : forall fr cf pc, good_frame fr -> column_present fr cf ->
  exists p n, pos_neg_split fr cf pc = Ok (p, n) /\ fcols p = fcols fr /\ fcols n = fcols fr /\
    picks (fun rw => exists w, value_at (fcols fr) rw cf w /\ py_eq w pc = true) (frows fr) (frows p) /\
    picks (fun rw => ~ exists w, value_at (fcols fr) rw cf w /\ py_eq w pc = true) (frows fr) (frows n) /\
    num_pos fr cf pc = Ok (length (frows p)) /\ num_neg fr cf pc = Ok (length (frows n)) /\
    length (frows p) + length (frows n) = length (frows fr).
Proof. exact pos_neg_spec. Qed.
Print Assumptions C17_pos_neg_partition.
Theorem C17_missing_class_column : forall fr cf pc, ~ column_present fr cf ->
  pos_neg_split fr cf pc = Err KeyError /\ num_pos fr cf pc = Err KeyError /\ num_neg fr cf pc = Err KeyError.
Proof. exact pos_neg_missing. Qed.
Print Assumptions C17_missing_class_column.
Example C17_nonvacuous : column_present demo (s_ "temp") /\ num_pos demo (s_ "temp") (PInt 15) = Ok 1 /\ num_neg demo (s_ "temp") (PInt 15) = Ok 2.
Proof. split; [apply has_col_iff; reflexivity|split; reflexivity]. Qed.

(** C18 *)
Theorem C18_rm_covered_rule : forall r pos neg,
  good_frame pos -> good_frame neg -> distinct_labels pos -> distinct_labels neg ->
  features_present pos [r] -> features_present neg [r] ->
  exists p n, rm_covered (rule_covers r) pos neg = Ok (p, n) /\ fcols p = fcols pos /\ fcols n = fcols neg /\
    picks (fun rw => ~ sat_rule (fcols pos) rw r) (frows pos) (frows p) /\
    picks (fun rw => ~ sat_rule (fcols neg) rw r) (frows neg) (frows n).
Proof. exact rm_covered_rule. Qed.
Print Assumptions C18_rm_covered_rule.
Theorem C18_rm_covered_ruleset : forall rs pos neg,
  good_frame pos -> good_frame neg -> distinct_labels pos -> distinct_labels neg ->
  features_present pos rs -> features_present neg rs ->
  exists p n, rm_covered (rs_covers rs) pos neg = Ok (p, n) /\ fcols p = fcols pos /\ fcols n = fcols neg /\
    picks (fun rw => ~ sat_ruleset (fcols pos) rw rs) (frows pos) (frows p) /\
    picks (fun rw => ~ sat_ruleset (fcols neg) rw rs) (frows neg) (frows n).
Proof. exact rm_covered_ruleset. Qed.
Print Assumptions C18_rm_covered_ruleset.
(** the CatNap version: exactly the labels whose row the rule does not cover remain *)
Theorem C18_rm_rule_covers_cn : forall fr cf x cn r pos neg p n,
  good_frame fr -> distinct_labels fr -> drop_col fr cf = Ok x -> cn_make fr cf = Ok cn ->
  incl pos (labels (frows fr)) -> incl neg (labels (frows fr)) ->
  rm_rule_covers_cn cn r pos neg = (p, n) ->
  picks (fun i => ~ exists rw, In rw (frows x) /\ rlab rw = i /\ sat_rule (fcols x) rw r) pos p /\
  picks (fun i => ~ exists rw, In rw (frows x) /\ rlab rw = i /\ sat_rule (fcols x) rw r) neg n.
Proof. exact cn_rm_covered. Qed.
Print Assumptions C18_rm_rule_covers_cn.
Example C18_nonvacuous : exists cn, cn_make demo (s_ "temp") = Ok cn /\
  rm_rule_covers_cn cn (Rule_ [c_ "outlook" "sunny"]) [10; 11] [12] = ([11], []).
Proof. eexists; split; reflexivity. Qed.

(** C19 *)
Theorem C19_nCr_is_binomial : forall n r, nCr (Z.of_nat n) (Z.of_nat r) = Z.of_nat (binom n r).
Proof. exact nCr_binom. Qed.
Print Assumptions C19_nCr_is_binomial.
Theorem C19_argmin_first_minimum : forall l i, argmin Qlt_b l = Ok i ->
  exists v, nth_error l i = Some v /\ forall j w, nth_error l j = Some w -> (v <= w)%Q /\ (j < i -> (v < w)%Q).
Proof. exact argmin_spec. Qed.
Print Assumptions C19_argmin_first_minimum.
Theorem C19_argmin_total : forall l : list Q, l <> [] -> exists i, argmin Qlt_b l = Ok i.
Proof. exact argmin_total. Qed.
Print Assumptions C19_argmin_total.
Theorem C19_i_replaced : forall (A : Type) (a b : list A) x v,
  i_replaced (a ++ x :: b) (length a) (Some v) = a ++ v :: b /\ i_replaced (a ++ x :: b) (length a) None = a ++ b.
Proof. exact @i_replaced_spec. Qed.
Print Assumptions C19_i_replaced.
Example C19_nonvacuous : nCr 30 10 = 30045015%Z /\ binom 6 2 = 15 /\ argmin Qlt_b [3; 1; 2; 1]%Q = Ok 1.
Proof. repeat split; vm_compute; reflexivity. Qed.

(** C20. x is the training frame without the class column; S any list of its labels. *)
Theorem C20_catnap_cond : forall fr cf x cn c S, good_frame fr -> distinct_labels fr ->
  drop_col fr cf = Ok x -> cn_make fr cf = Ok cn -> incl S (labels (frows fr)) ->
  picks (fun i => exists rw, In rw (frows x) /\ rlab rw = i /\ sat_cond (fcols x) rw c) S (cn_cond_covers cn c S).
Proof. exact cn_cond_exact. Qed.
Print Assumptions C20_catnap_cond.
Theorem C20_catnap_rule : forall fr cf x cn r S, good_frame fr -> distinct_labels fr ->
  drop_col fr cf = Ok x -> cn_make fr cf = Ok cn -> incl S (labels (frows fr)) ->
  picks (fun i => exists rw, In rw (frows x) /\ rlab rw = i /\ sat_rule (fcols x) rw r) S (cn_rule_covers cn r S).
Proof. exact cn_rule_exact. Qed.
Print Assumptions C20_catnap_rule.
(** the ruleset version is exact except for a ruleset containing the empty rule asked about NO example *)
Theorem C20_catnap_ruleset_partial : forall fr cf x cn rs S, good_frame fr -> distinct_labels fr ->
  drop_col fr cf = Ok x -> cn_make fr cf = Ok cn -> incl S (labels (frows fr)) ->
  (S <> [] \/ forall r, In r rs -> conds r <> []) ->
  picks (fun i => exists rw, In rw (frows x) /\ rlab rw = i /\ sat_ruleset (fcols x) rw rs) S (cn_rs_covers cn rs S).
Proof. exact cn_rs_exact. Qed.
Print Assumptions C20_catnap_ruleset_partial.
Theorem C20_catnap_empty_subset_refuted : exists fr cf cn, good_frame fr /\ distinct_labels fr /\ cn_make fr cf = Ok cn /\
  cn_rs_covers cn [Rule_ []] [] = labels (frows fr) /\ frows fr <> [].
Proof.
  exists demo, (s_ "temp"). eexists. split; [exact demo_good|]. split; [exact demo_labels|]. split; [reflexivity|]. split; [reflexivity|discriminate].
Qed.
Print Assumptions C20_catnap_empty_subset_refuted.
Example C20_nonvacuous : exists x cn, drop_col demo (s_ "temp") = Ok x /\ cn_make demo (s_ "temp") = Ok cn /\
  cn_rule_covers cn (Rule_ [c_ "outlook" "sunny"; c_ "wind" "strong"]) [12; 10] = [12].
Proof. eexists _, _; split; [reflexivity|]. split; reflexivity. Qed.

(** C45. Scores from the four confusion counts. *)
Theorem C45_accuracy : forall acts preds, length acts = length preds ->
  let tp := tally true true acts preds in let tn := tally false false acts preds in
  (acts = [] -> score_accuracy acts preds = Ok None) /\
  (acts <> [] -> exists q, score_accuracy acts preds = Ok (Some q) /\ (q == qn (tp + tn) / qn (length acts))%Q /\ (0 <= q <= 1)%Q).
Proof. exact accuracy_value. Qed.
Print Assumptions C45_accuracy.
Theorem C45_precision : forall acts preds, length acts = length preds ->
  let tp := tally true true acts preds in let fp := tally false true acts preds in
  (tp + fp = 0 -> score_precision acts preds = Ok None) /\
  (tp + fp <> 0 -> exists q, score_precision acts preds = Ok (Some q) /\ (q == qn tp / qn (tp + fp))%Q /\ (0 <= q <= 1)%Q).
Proof. exact precision_value. Qed.
Print Assumptions C45_precision.
Theorem C45_recall : forall acts preds, length acts = length preds ->
  let tp := tally true true acts preds in let fn := tally true false acts preds in
  (tp + fn = 0 -> score_recall acts preds = Ok None) /\
  (tp + fn <> 0 -> exists q, score_recall acts preds = Ok (Some q) /\ (q == qn tp / qn (tp + fn))%Q /\ (0 <= q <= 1)%Q).
Proof. exact recall_value. Qed.
Print Assumptions C45_recall.
(** F1 is None exactly when there is no true positive (also when the textbook value 2tp/(2tp+fp+fn) would be 0) *)
Theorem C45_f1 : forall acts preds, length acts = length preds ->
  let tp := tally true true acts preds in let fp := tally false true acts preds in let fn := tally true false acts preds in
  (tp = 0 -> score_f1 acts preds = Ok None) /\
  (tp <> 0 -> exists q, score_f1 acts preds = Ok (Some q) /\ (q == qn (2 * tp) / qn (2 * tp + fp + fn))%Q /\ (0 <= q <= 1)%Q).
Proof. exact f1_value. Qed.
Print Assumptions C45_f1.
Theorem C45_length_mismatch : forall acts preds, length acts <> length preds ->
  score_accuracy acts preds = Err ValueError /\ score_precision acts preds = Err ValueError /\
  score_recall acts preds = Err ValueError /\ score_f1 acts preds = Err ValueError.
Proof. exact score_lengths. Qed.
Print Assumptions C45_length_mismatch.
Theorem C45_counts_are_all : forall acts preds, length acts = length preds ->
  tally true true acts preds + tally false true acts preds + tally true false acts preds + tally false false acts preds = length acts.
Proof. exact tally_total. Qed.
Print Assumptions C45_counts_are_all.
Example C45_nonvacuous : tally true true [true; false; true] [true; true; false] = 1 /\ score_f1 [true; false; true] [true; true; false] = Ok (Some (2 * (1#2) * (1#2) / ((1#2) + (1#2)))%Q)
  /\ score_f1 [true] [false] = Ok None.
Proof. repeat split; vm_compute; reflexivity. Qed.
