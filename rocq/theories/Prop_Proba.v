(** * Prop_Proba.v : class statistics and probabilities (C40-C44) *)
From Verif Require Import ProbaFacts RuleFacts Demo Prop_Text.

(** C41. recalibrate_proba succeeds and every statistic counts the calibration rows. *)
Theorem C41_recalibrate_counts : forall alpha rs fr cf pc,
  (0 < alpha)%Q -> good_frame fr -> distinct_labels fr -> features_present fr (rs_rules rs) -> column_present fr cf ->
  exists rs', recalibrate alpha rs fr cf pc = Ok rs' /\
    rs_possible rs' = rs_possible rs /\
    Forall2 (fun r r' => conds r' = conds r /\ exists s covered, rstats r' = Some s /\
               picks (fun rw => sat_rule (fcols fr) rw r) (frows fr) covered /\
               stats_of_rows alpha (fcols fr) cf pc covered s) (rs_rules rs) (rs_rules rs') /\
    exists s uncovered, rs_uncov rs' = Some s /\
      picks (fun rw => ~ sat_ruleset (fcols fr) rw (rs_rules rs)) (frows fr) uncovered /\
      stats_of_rows alpha (fcols fr) cf pc uncovered s.
Proof. exact recalibrate_exact. Qed.
Print Assumptions C41_recalibrate_counts.
(** the positivity of alpha is needed: with alpha = 0 a rule that covers nothing divides by zero *)
Definition cal_fr : frame :=
  mkframe [s_ "outlook"; s_ "wind"; s_ "play"]
    [ mkrow 0 [s_ "sunny"; s_ "weak"; PInt 1]; mkrow 1 [s_ "sunny"; s_ "strong"; PInt 0];
      mkrow 2 [s_ "rain"; s_ "weak"; PInt 0]; mkrow 3 [s_ "rain"; s_ "strong"; PInt 0]; mkrow 4 [s_ "sunny"; s_ "weak"; PInt 1] ].
Definition cal_rs : ruleset := mkruleset [Rule_ [c_ "outlook" "sunny"]; Rule_ [c_ "wind" "weak"]] None None.
Theorem C41_alpha_zero : recalibrate 0 (mkruleset [Rule_ [c_ "outlook" "fog"]] None None) cal_fr (s_ "play") (PInt 1) = Err ZeroDivisionError.
Proof. vm_compute. reflexivity. Qed.
Print Assumptions C41_alpha_zero.
Lemma cal_hyp : good_frame cal_fr /\ distinct_labels cal_fr /\ features_present cal_fr (rs_rules cal_rs) /\ column_present cal_fr (s_ "play").
Proof.
  split; [apply good_frameb_ok; reflexivity|]. split; [|split].
  - unfold distinct_labels; cbn. repeat constructor; cbn; intuition; discriminate.
  - apply all_present_iff; reflexivity.
  - apply has_col_iff; reflexivity.
Qed.
Example C41_nonvacuous : exists rs', recalibrate 1 cal_rs cal_fr (s_ "play") (PInt 1) = Ok rs' /\
  map (fun r => option_map st_ns (rstats r)) (rs_rules rs') = [Some (1, 2); Some (1, 2)] /\
  option_map st_ns (rs_uncov rs') = Some (1, 0).
Proof. eexists. split; [vm_compute; reflexivity|]. split; reflexivity. Qed.

(** C40. On a calibrated ruleset predict_proba succeeds; every row is a pair of probabilities; rows predicted negative get the
    uncovered pair; rows predicted positive get the mean of the smoothed frequencies of exactly their covering rules. *)
Theorem C40_probabilities : forall rs fr, calibrated rs -> good_frame fr -> distinct_labels fr -> features_present fr (rs_rules rs) ->
  exists probas preds reasons unc,
    rs_predict_proba rs fr = Ok (probas, reasons) /\ rs_predict (rs_rules rs) fr = Ok preds /\
    rs_uncov rs = Some unc /\
    Forall probabilities probas /\
    Forall2 (fun rw rr => picks (sat_rule (fcols fr) rw) (rs_rules rs) rr) (frows fr) reasons /\
    Forall2 (fun (x : bool * list rule) pr =>
      (fst x = false -> snd x = [] /\ eq_pair pr (st_smooth unc)) /\
      (fst x = true -> exists ps, Forall2 (fun r p => exists s, rstats r = Some s /\ st_smooth s = p) (snd x) ps /\ mean_of ps pr))
      (combine preds reasons) probas.
Proof. exact predict_proba_exact. Qed.
Print Assumptions C40_probabilities.
(** Calibration is what recalibrate_proba (and so fit) establishes, and what deleting rules keeps. *)
Theorem C40_recalibrate_calibrates : forall alpha rs fr cf pc,
  (0 < alpha)%Q -> good_frame fr -> distinct_labels fr -> features_present fr (rs_rules rs) -> column_present fr cf ->
  exists rs', recalibrate alpha rs fr cf pc = Ok rs' /\ calibrated rs'.
Proof. exact recalibrate_calibrated. Qed.
Print Assumptions C40_recalibrate_calibrates.
Theorem C40_deleting_keeps_calibrated : forall rs rs', calibrated rs -> rs_uncov rs' = rs_uncov rs ->
  sublist (rs_rules rs') (rs_rules rs) -> calibrated rs'.
Proof.
  intros rs rs' [U R] E S. split; [rewrite E; auto|]. intros r Hr. apply R. eapply sublist_In; eauto.
Qed.
Print Assumptions C40_deleting_keeps_calibrated.
Example C40_nonvacuous : exists rs' probas reasons, recalibrate 1 cal_rs cal_fr (s_ "play") (PInt 1) = Ok rs' /\ calibrated rs' /\
  rs_predict_proba rs' cal_fr = Ok (probas, reasons) /\
  Forall2 eq_pair probas [(2#5, 3#5); (2#5, 3#5); (2#5, 3#5); (2#3, 1#3); (2#5, 3#5)]%Q.
Proof.
  destruct cal_hyp as (H1 & H2 & H3 & H4).
  destruct (recalibrate_calibrated 1 cal_rs cal_fr (s_ "play") (PInt 1)) as (rs' & E & C); auto; [reflexivity|].
  assert (E' := E). vm_compute in E'. injection E' as <-.
  eexists _, _, _. split; [exact E|]. split; [exact C|]. split; [vm_compute; reflexivity|].
  repeat constructor; reflexivity.
Qed.

(** C42. Recalibration keeps the rules' conditions and order, hence every later prediction (whatever alpha and the data, and also
    when the data has repeated labels). *)
Theorem C42_recalibration_keeps_predictions : forall alpha rs fr cf pc rs',
  recalibrate alpha rs fr cf pc = Ok rs' ->
  map conds (rs_rules rs') = map conds (rs_rules rs) /\
  forall fr', rs_predict (rs_rules rs') fr' = rs_predict (rs_rules rs) fr'.
Proof.
  intros alpha rs fr cf pc rs' H. apply recalibrate_conds in H. split; auto. intros fr'. apply predict_conds; auto.
Qed.
Print Assumptions C42_recalibration_keeps_predictions.
Example C42_nonvacuous : exists rs', recalibrate 1 cal_rs cal_fr (s_ "play") (PInt 1) = Ok rs' /\ rs' <> cal_rs.
Proof. eexists. split; [vm_compute; reflexivity|discriminate]. Qed.

(** C43. Refuted: min_samples = 100 with require_min_samples = True on five rows, one rule covering no positive row: the estimates are
    replaced all the same. *)
Definition stale : stats := mkstats (0, 9) (0, 1)%Q (1#11, 10#11)%Q.
Definition cal_old : ruleset := mkruleset [mkrule [c_ "wind" "strong"] (Some stale)] None (Some stale).
Theorem C43_require_min_samples_refuted : exists rs', recalibrate_min (Some 100%Z) true 1 cal_old cal_fr (s_ "play") (PInt 1) = Ok rs' /\
  length (frows cal_fr) = 5 /\ option_map st_ns (rs_uncov rs') = Some (1, 2) /\
  map (fun r => option_map st_ns (rstats r)) (rs_rules rs') = [Some (2, 0)].
Proof. eexists. split; [vm_compute; reflexivity|]. repeat split. Qed.
Print Assumptions C43_require_min_samples_refuted.
(** exactly: the two parameters have no effect *)
Theorem C43_parameters_ignored : forall m q alpha rs fr cf pc, recalibrate_min m q alpha rs fr cf pc = recalibrate alpha rs fr cf pc.
Proof. exact recalibrate_min_eq. Qed.
Print Assumptions C43_parameters_ignored.

(** C44. Refuted: a rule added after fitting has no statistics, and predict_proba raises AttributeError as soon as it covers a row of
    the data; in general: *)
Theorem C44_uncalibrated_rule_raises : forall rs fr r rw, good_frame fr -> distinct_labels fr -> features_present fr (rs_rules rs) ->
  In r (rs_rules rs) -> rstats r = None -> In rw (frows fr) -> sat_rule (fcols fr) rw r ->
  rs_predict_proba rs fr = Err AttributeError.
Proof. exact predict_proba_uncalibrated. Qed.
Print Assumptions C44_uncalibrated_rule_raises.
Theorem C44_proba_after_edit_refuted : exists rs rules' probas reasons,
  recalibrate 1 cal_rs cal_fr (s_ "play") (PInt 1) = Ok rs /\
  rs_predict_proba rs cal_fr = Ok (probas, reasons) /\
  rules' = rs_add (Rule_ [c_ "outlook" "rain"]) (rs_rules rs) /\
  rs_predict_proba (mkruleset rules' (rs_possible rs) (rs_uncov rs)) cal_fr = Err AttributeError.
Proof. eexists _, _, _, _. split; [vm_compute; reflexivity|]. split; [vm_compute; reflexivity|]. split; [reflexivity|]. vm_compute. reflexivity. Qed.
Print Assumptions C44_proba_after_edit_refuted.
(** What holds: after edits that only delete rules, or after any edit followed by a recalibration, probabilities are available (missing:
    edits that bring in a rule without recalibrating). *)
Theorem C44_proba_after_edit_partial : forall rs fr rules', good_frame fr -> distinct_labels fr -> features_present fr rules' ->
  (calibrated rs /\ sublist rules' (rs_rules rs)) \/
  (exists alpha rs0 fr0 cf pc, (0 < alpha)%Q /\ good_frame fr0 /\ distinct_labels fr0 /\ features_present fr0 (rs_rules rs0) /\
     column_present fr0 cf /\ recalibrate alpha rs0 fr0 cf pc = Ok rs /\ rules' = rs_rules rs) ->
  exists probas reasons, rs_predict_proba (mkruleset rules' (rs_possible rs) (rs_uncov rs)) fr = Ok (probas, reasons) /\
    length probas = length (frows fr) /\ Forall probabilities probas.
Proof.
  intros rs fr rules' G L P H.
  assert (C : calibrated (mkruleset rules' (rs_possible rs) (rs_uncov rs))).
  { destruct H as [[C S] | (alpha & rs0 & fr0 & cf & pc & HA & G0 & L0 & P0 & C0 & E & ->)].
    - eapply C40_deleting_keeps_calibrated; eauto.
    - destruct (recalibrate_calibrated alpha rs0 fr0 cf pc HA G0 L0 P0 C0) as (rs' & E' & C). rewrite E in E'. injection E' as <-.
      destruct rs; exact C. }
  destruct (predict_proba_exact _ fr C G L P) as (probas & preds & reasons & unc & E & EP & _ & F & F2 & F3).
  exists probas, reasons. split; auto. split; auto. apply Forall2_length in F2, F3. rewrite <- F3, combine_length, <- F2.
  destruct (predict_is_dnf rules' fr G L P) as (preds' & E' & F4). cbn [rs_rules] in EP. rewrite EP in E'. injection E' as <-.
  apply Forall2_length in F4. lia.
Qed.
Print Assumptions C44_proba_after_edit_partial.
