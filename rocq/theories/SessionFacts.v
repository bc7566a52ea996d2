(** * SessionFacts.v : facts about histories of calls (C13, C56) *)
From Verif Require Export SessionSpec ClfFacts RuleFacts ProbaFacts FitRun.
Open Scope nat_scope.

Lemma same_text_eqb x y : rule_eqb x y = true <-> same_text (conds x) (conds y).
Proof.
  rewrite rule_eqb_iff. unfold same_text, cond_strs, incl. split.
  - intros (L & A & B). split; auto. intros s. split; auto.
  - intros (L & A). split; auto. split; intros s; apply A.
Qed.
Lemma map_split {A B} (f : A -> B) l a x b : map f l = a ++ x :: b -> exists a' x' b', l = a' ++ x' :: b' /\ map f a' = a /\ f x' = x /\ map f b' = b.
Proof.
  intros H. apply map_eq_app in H. destruct H as (a' & l' & -> & E1 & E2). destruct l' as [|x' b']; [discriminate|]. injection E2 as E2 E3.
  exists a', x', b'. auto.
Qed.

(** ensure_bt, predict, ... keep everything but the transformer *)
Record same_model (cl cl' : clf) : Prop := mksame {
  sm_alg : c_alg cl' = c_alg cl; sm_rules : rules_of cl' = rules_of cl; sm_cf : c_cf cl' = c_cf cl; sm_pc : c_pc cl' = c_pc cl; sm_sel : c_sel cl' = c_sel cl;
  sm_feats : c_feats cl' = c_feats cl; sm_bt : forall b, c_bt cl = Some b -> c_bt cl' = Some b }.
Lemma same_refl cl : same_model cl cl. Proof. constructor; auto. Qed.
Lemma same_trans a b c : same_model a b -> same_model b c -> same_model a c.
Proof. intros [] []. constructor; try congruence. auto. Qed.
Lemma ensure_bt_same cl cl' b : ensure_bt cl = (cl', b) -> same_model cl cl'.
Proof.
  unfold ensure_bt. destruct (c_bt cl) eqn:B; [intros H; injection H as <- _; apply same_refl|].
  destruct (c_rs cl); intros H; injection H as <- _; (constructor; try reflexivity; intros b0 Hb; congruence).
Qed.
Lemma predict_same cl X n cl' o : clf_predict cl X n = (cl', o) -> same_model cl cl'.
Proof. unfold clf_predict. destruct (c_rs cl); [|intros H; injection H as <- _; apply same_refl]. destruct (ensure_bt cl) as [c b] eqn:E. intros H. injection H as <- _. eapply ensure_bt_same; eauto. Qed.
Lemma stats_run_conds alpha fr cf pc todo done : map conds (fst (stats_run alpha fr cf pc done todo)) = map conds (done ++ todo).
Proof.
  revert done. induction todo as [|r t IH]; intros done; cbn [stats_run]; [rewrite app_nil_r; reflexivity|].
  destruct (rule_class_stats alpha fr cf pc r) as [r'|e] eqn:E; [|reflexivity]. rewrite IH, <- app_assoc. rewrite !map_app. cbn [map app].
  unfold rule_class_stats in E. binv E. binv E. binv E. injection E as <-. reflexivity.
Qed.
Lemma recalibrate_same cl X y n ms rm d cl' o : clf_recalibrate cl X y n ms rm d = (cl', o) -> same_model cl cl'.
Proof.
  unfold clf_recalibrate. destruct (c_cf cl); [|intros H; injection H as <- _; apply same_refl]. destruct (c_pc cl); [|intros H; injection H as <- _; apply same_refl].
  destruct (if d then _ else _); [|intros H; injection H as <- _; apply same_refl].
  destruct (preprocess_recalibrate _ _ _ _ _); [|intros H; injection H as <- _; apply same_refl].
  destruct (c_rs cl) as [x|] eqn:R; [|intros H; injection H as <- _; apply same_refl].
  destruct (recalibrate_run _ _ _ _ _ _ _) as [x' o'] eqn:E. intros H. injection H as <- _.
  assert (K : map conds (rs_rules x') = map conds (rs_rules x)).
  { unfold recalibrate_run in E. rewrite recalibrate_min_eq in E. destruct (check_features _ _); [|injection E as <- _; reflexivity].
    destruct (recalibrate _ _ _ _ _) as [x2|e] eqn:E2; injection E as <- _; [apply recalibrate_conds in E2; auto|].
    cbn [rs_rules set_rules]. rewrite stats_run_conds. reflexivity. }
  constructor; try reflexivity; auto. unfold rules_of. rewrite R. cbn. rewrite K. reflexivity.
Qed.
Lemma prediction_side_same w cl k cl' o : prediction_side k -> perform w cl k = (cl', o) -> same_model cl cl'.
Proof.
  destruct k; cbn [prediction_side perform]; intros S H; try contradiction.
  - destruct (clf_predict cl X names) eqn:E. injection H as <- _. eapply predict_same; eauto.
  - unfold clf_predict_reasons in H. destruct (c_rs cl); [|injection H as <- _; apply same_refl]. destruct (ensure_bt cl) eqn:E. injection H as <- _. eapply ensure_bt_same; eauto.
  - unfold clf_predict_proba in H. destruct (c_rs cl) eqn:R; [|injection H as <- _; apply same_refl]. destruct (bind _ _) as [[df p]|e]; injection H as <- _; [|apply same_refl].
    constructor; try reflexivity; auto.
  - unfold clf_score in H. destruct (clf_predict cl X None) eqn:E. injection H as <- _. eapply predict_same; eauto.
  - unfold clf_rule_stats in H. destruct (c_rs cl); [|injection H as <- _; apply same_refl]. destruct (ensure_bt cl) eqn:E. injection H as <- _. eapply ensure_bt_same; eauto.
  - destruct (clf_recalibrate _ _ _ _ _ _ _) eqn:E. injection H as <- _. eapply recalibrate_same; eauto.
  - injection H as <- _. constructor; try reflexivity; auto.
Qed.

Lemma rules_some cl l : rules_of cl = Some l -> exists x, c_rs cl = Some x /\ map conds (rs_rules x) = l.
Proof. unfold rules_of. destruct (c_rs cl) as [x|]; [|discriminate]. intros H. injection H as <-. exists x; auto. Qed.
Lemma edit_ok cl x f l : c_rs cl = Some x -> f (rs_rules x) = Ok l -> edit cl f = (set_rs cl (set_rules x l), Ok tt).
Proof. intros R E. unfold edit. rewrite R, E. reflexivity. Qed.
Lemma edit_bad cl x f e : c_rs cl = Some x -> f (rs_rules x) = Err e -> edit cl f = (cl, Err e).
Proof. intros R E. unfold edit. rewrite R, E. reflexivity. Qed.
Lemma rules_set cl x l : rules_of (set_rs cl (set_rules x l)) = Some (map conds l). Proof. reflexivity. Qed.

Lemma index_cases i (l : list rule) : (exists a x b, at_pos i l a x b) \/ outside i (map conds l).
Proof.
  unfold outside. rewrite map_length. destruct (Z_lt_dec i 0); [right; lia|]. destruct (Z_lt_dec i (Z.of_nat (length l))); [left; apply at_pos_exists; lia|right; lia].
Qed.
Lemma check_index_at i l a x b : at_pos i l a x b -> exists n, check_index i l = Ok n.
Proof.
  intros [-> L]. unfold check_index. rewrite app_length. cbn [length]. 
  destruct (Z.ltb_spec i 0); [lia|]. destruct (Z.leb_spec (Z.of_nat (length a + S (length b))) i); [lia|]. eexists. reflexivity.
Qed.
Lemma check_index_out i l : outside i (map conds l) -> check_index i l = Err IndexError.
Proof.
  unfold outside. rewrite map_length. intros H. unfold check_index. destruct (Z.ltb_spec i 0); [reflexivity|]. destruct (Z.leb_spec (Z.of_nat (length l)) i); [reflexivity|lia].
Qed.
Lemma found_at_map i l a x b : at_pos i l a x b -> found_at i (map conds l) (map conds a) (conds x) (map conds b).
Proof. intros [-> L]. split; [rewrite map_app; reflexivity|]. rewrite map_length. exact L. Qed.
Lemma found_first_map old l a x b : first_equal old l a x b -> found_first (conds old) (map conds l) (map conds a) (conds x) (map conds b).
Proof.
  intros (-> & E & N). split; [rewrite map_app; reflexivity|]. split; [apply same_text_eqb; auto|]. intros y I S. apply in_map_iff in I. destruct I as (y' & <- & I).
  apply same_text_eqb in S. rewrite N in S by auto. discriminate.
Qed.
Lemma nowhere_map old l : (forall y, In y l -> rule_eqb y old = false) -> nowhere (conds old) (map conds l).
Proof. intros N y I S. apply in_map_iff in I. destruct I as (y' & <- & I). apply same_text_eqb in S. rewrite N in S by auto. discriminate. Qed.
Lemma find_absent old l : (forall y, In y l -> rule_eqb y old = false) -> find_rule old l = Err ValueError.
Proof. intros N. unfold find_rule. rewrite index_of_none; auto. Qed.

Lemma perform_spec w cl k cl' o l : rules_of cl = Some l -> perform w cl k = (cl', o) -> exists l', spec_step k l o l' /\ rules_of cl' = Some l'.
Proof.
  intros R H.
  assert (PS : prediction_side k -> exists l', spec_step k l o l' /\ rules_of cl' = Some l').
  { intros S. exists l. split; [constructor; auto|]. rewrite (sm_rules _ _ (prediction_side_same _ _ _ _ _ S H)). exact R. }
  destruct (rules_some _ _ R) as (x & RX & EL). subst l.
  destruct k; try (apply PS; exact I); clear PS; cbn [perform] in H.
  - (* add *) unfold add_rule in H. destruct (rule_arg o0) as [r|e] eqn:A.
    + rewrite (edit_ok _ x _ (rs_add r (rs_rules x))) in H; [|exact RX|cbv beta; try rewrite A; reflexivity]. injection H as <- <-. eexists. split; [apply sp_add; exists r; eauto|].
      rewrite rules_set. unfold rs_add. rewrite map_app. reflexivity.
    + rewrite (edit_bad _ x _ e) in H; [|exact RX|cbv beta; try rewrite A; reflexivity]. injection H as <- <-. eexists. split; [apply sp_bad_add; auto|exact R].
  - (* remove at *) unfold remove_rule_at in H. destruct (index_cases i (rs_rules x)) as [(a & y & b & P)|OUT].
    + rewrite (edit_ok _ x _ (a ++ b)) in H; [|exact RX|cbv beta; apply (proj1 (remove_at_spec i (rs_rules x)) a y b P)]. injection H as <- <-. eexists. split; [eapply sp_remove_at, found_at_map; eauto|].
      rewrite rules_set, map_app. reflexivity.
    + rewrite (edit_bad _ x _ IndexError) in H; [|exact RX|cbv beta; unfold rs_remove; rewrite check_index_out by auto; reflexivity]. injection H as <- <-. eexists. split; [apply sp_remove_at_bad; auto|exact R].
  - (* remove rule *) unfold remove_rule in H. destruct (rule_arg o0) as [r|e] eqn:A.
    + destruct (first_equal_cases r (rs_rules x)) as [(a & y & b & P)|N].
      * rewrite (edit_ok _ x _ (a ++ b)) in H; [|exact RX|cbv beta; try rewrite A; cbn [bind]; apply (proj1 (by_value_spec r r (rs_rules x)) a y b P)]. injection H as <- <-.
        eexists. split; [eapply sp_remove; [exists r; split; eauto|apply found_first_map; eauto]|]. rewrite rules_set, map_app. reflexivity.
      * rewrite (edit_bad _ x _ ValueError) in H; [|exact RX|cbv beta; try rewrite A; cbn [bind]; apply (proj2 (by_value_spec r r (rs_rules x)) N)]. injection H as <- <-.
        eexists. split; [eapply sp_remove_absent; [exists r; split; eauto|apply nowhere_map; auto]|exact R].
    + rewrite (edit_bad _ x _ e) in H; [|exact RX|cbv beta; try rewrite A; reflexivity]. injection H as <- <-. eexists. split; [apply sp_bad_remove; auto|exact R].
  - (* insert at *) unfold insert_rule_at in H. destruct (index_cases i (rs_rules x)) as [(a & y & b & P)|OUT].
    + destruct (check_index_at _ _ _ _ _ P) as (n & CI). destruct (rule_arg o0) as [r|e] eqn:A.
      * rewrite (edit_ok _ x _ (a ++ r :: y :: b)) in H; [|exact RX|cbv beta; rewrite CI; cbn [bind]; try rewrite A; cbn [bind]; apply (proj1 (insert_at_spec i r (rs_rules x)) a y b P)]. injection H as <- <-.
        eexists. split; [eapply sp_insert_at; [apply found_at_map; eauto|exists r; split; eauto]|]. rewrite rules_set, map_app. reflexivity.
      * rewrite (edit_bad _ x _ e) in H; [|exact RX|cbv beta; rewrite CI; cbn [bind]; try rewrite A; reflexivity]. injection H as <- <-. eexists. split; [eapply sp_bad_insert_at; [apply found_at_map; eauto|eauto]|exact R].
    + rewrite (edit_bad _ x _ IndexError) in H; [|exact RX|cbv beta; rewrite check_index_out by auto; reflexivity]. injection H as <- <-. eexists. split; [apply sp_insert_at_bad; auto|exact R].
  - (* insert rule *) unfold insert_rule in H. destruct (rule_arg before) as [q|e] eqn:B.
    + destruct (first_equal_cases q (rs_rules x)) as [(a & y & b & P)|N].
      * destruct (rule_arg o0) as [r|e] eqn:A.
        -- rewrite (edit_ok _ x _ (a ++ r :: y :: b)) in H; [|exact RX|cbv beta; try rewrite B; cbn [bind]; rewrite (find_rule_first _ _ _ _ _ P); cbn [bind]; try rewrite A; cbn [bind]; apply (proj1 (by_value_spec q r (rs_rules x)) a y b P)].
           injection H as <- <-. eexists. split; [eapply sp_insert; [exists q; split; eauto|apply found_first_map; eauto|exists r; split; eauto]|]. rewrite rules_set, map_app. reflexivity.
        -- rewrite (edit_bad _ x _ e) in H; [|exact RX|cbv beta; try rewrite B; cbn [bind]; rewrite (find_rule_first _ _ _ _ _ P); cbn [bind]; try rewrite A; reflexivity]. injection H as <- <-.
           eexists. split; [eapply sp_bad_insert; [exists q; split; eauto|apply found_first_map; eauto|exact A]|exact R].
      * rewrite (edit_bad _ x _ ValueError) in H; [|exact RX|cbv beta; try rewrite B; cbn [bind]; rewrite find_absent by auto; reflexivity]. injection H as <- <-.
        eexists. split; [eapply sp_insert_absent; [exists q; split; eauto|apply nowhere_map; auto]|exact R].
    + rewrite (edit_bad _ x _ e) in H; [|exact RX|cbv beta; try rewrite B; reflexivity]. injection H as <- <-. eexists. split; [eapply sp_bad_insert_old; exact B|exact R].
  - (* replace at *) unfold replace_rule_at in H. destruct (index_cases i (rs_rules x)) as [(a & y & b & P)|OUT].
    + destruct (check_index_at _ _ _ _ _ P) as (n & CI). destruct (rule_arg o0) as [r|e] eqn:A.
      * rewrite (edit_ok _ x _ (a ++ r :: b)) in H; [|exact RX|cbv beta; rewrite CI; cbn [bind]; try rewrite A; cbn [bind]; apply (proj1 (replace_at_spec i r (rs_rules x)) a y b P)]. injection H as <- <-.
        eexists. split; [eapply sp_replace_at; [apply found_at_map; eauto|exists r; split; eauto]|]. rewrite rules_set, map_app. reflexivity.
      * rewrite (edit_bad _ x _ e) in H; [|exact RX|cbv beta; rewrite CI; cbn [bind]; try rewrite A; reflexivity]. injection H as <- <-. eexists. split; [eapply sp_bad_replace_at; [apply found_at_map; eauto|eauto]|exact R].
    + rewrite (edit_bad _ x _ IndexError) in H; [|exact RX|cbv beta; rewrite check_index_out by auto; reflexivity]. injection H as <- <-. eexists. split; [apply sp_replace_at_bad; auto|exact R].
  - (* replace rule *) unfold replace_rule in H. destruct (rule_arg old) as [q|e] eqn:B.
    + destruct (first_equal_cases q (rs_rules x)) as [(a & y & b & P)|N].
      * destruct (rule_arg o0) as [r|e] eqn:A.
        -- rewrite (edit_ok _ x _ (a ++ r :: b)) in H; [|exact RX|cbv beta; try rewrite B; cbn [bind]; rewrite (find_rule_first _ _ _ _ _ P); cbn [bind]; try rewrite A; cbn [bind]; apply (proj1 (by_value_spec q r (rs_rules x)) a y b P)].
           injection H as <- <-. eexists. split; [eapply sp_replace; [exists q; split; eauto|apply found_first_map; eauto|exists r; split; eauto]|]. rewrite rules_set, map_app. reflexivity.
        -- rewrite (edit_bad _ x _ e) in H; [|exact RX|cbv beta; try rewrite B; cbn [bind]; rewrite (find_rule_first _ _ _ _ _ P); cbn [bind]; try rewrite A; reflexivity]. injection H as <- <-.
           eexists. split; [eapply sp_bad_replace; [exists q; split; eauto|apply found_first_map; eauto|exact A]|exact R].
      * rewrite (edit_bad _ x _ ValueError) in H; [|exact RX|cbv beta; try rewrite B; cbn [bind]; rewrite find_absent by auto; reflexivity]. injection H as <- <-.
        eexists. split; [eapply sp_replace_absent; [exists q; split; eauto|apply nowhere_map; auto]|exact R].
    + rewrite (edit_bad _ x _ e) in H; [|exact RX|cbv beta; try rewrite B; reflexivity]. injection H as <- <-. eexists. split; [eapply sp_bad_replace_old; exact B|exact R].
  - unfold init_ruleset in H. destruct (frommodel m) as [y|e] eqn:M; injection H as <- <-.
    + eexists. split; [apply sp_init; eauto|reflexivity].
    + eexists. split; [apply sp_init_bad; eauto|exact R].
Qed.
