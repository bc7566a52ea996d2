(** * Prop_Classifier.v : predictions, scores and rule statistics of a classifier object (C01, C03, C46, C47) *)
From Verif Require Import ClfFacts Demo Prop_Helpers Prop_Prep Prop_Fit.
Open Scope nat_scope.

(** C01 for a classifier: predict is True exactly on the rows where all conditions of some rule hold, numbers of binned features being
    seen as their bin's label; the classifier is unchanged. *)
Theorem C01_classifier_predict : forall cl x cf pc sel bt X names fr,
  ready cl x cf pc sel -> c_bt cl = Some bt -> suits cl x cf sel bt X names fr ->
  exists preds, clf_predict cl X names = (cl, Ok preds) /\
    Forall2 (fun rw p => p = true <-> some_holds bt (fcols fr) rw (rs_rules x)) (frows fr) preds.
Proof.
  intros cl x cf pc sel bt X names fr R B S. destruct (prediction_frame_views _ _ _ _ _ _ _ _ _ R S) as (df & E & V).
  destruct (views_predict _ _ _ _ _ _ _ _ _ S V) as (preds & EP & F). exists preds. split; auto.
  unfold clf_predict, ensure_bt. rewrite (rd_rs _ _ _ _ _ R), B. cbn [bind]. rewrite E. cbn [bind]. rewrite EP. reflexivity.
Qed.
Print Assumptions C01_classifier_predict.
(** C03 for a classifier: the reasons are the rules that hold, in order. *)
Theorem C03_classifier_reasons : forall cl x cf pc sel bt X names fr,
  ready cl x cf pc sel -> c_bt cl = Some bt -> suits cl x cf sel bt X names fr ->
  exists preds reasons, clf_predict_reasons cl X names = (cl, Ok (preds, reasons)) /\ clf_predict cl X names = (cl, Ok preds) /\
    Forall2 (fun rw rr => picks (holds bt (fcols fr) rw) (rs_rules x) rr) (frows fr) reasons.
Proof.
  intros cl x cf pc sel bt X names fr R B S. destruct (prediction_frame_views _ _ _ _ _ _ _ _ _ R S) as (df & E & V).
  destruct (views_reasons _ _ _ _ _ _ _ _ _ S V) as (preds & reasons & EP & EQ & F). exists preds, reasons.
  unfold clf_predict, clf_predict_reasons, ensure_bt. rewrite (rd_rs _ _ _ _ _ R), B. cbn [bind]. rewrite E. cbn [bind]. rewrite EP, EQ. auto.
Qed.
Print Assumptions C03_classifier_reasons.

(** C46. The default score is the fraction of rows on which "some rule holds" and "label is the positive class" agree. *)
Theorem C46_score : forall cl x cf pc sel bt X fr y,
  ready cl x cf pc sel -> c_bt cl = Some bt -> suits cl x cf sel bt X None fr -> length (y_vals y) = length (frows fr) ->
  exists q agree, clf_score score_accuracy cl X y = (cl, Ok (Some q)) /\
    picks (fun ry => some_holds bt (fcols fr) (fst ry) (rs_rules x) <-> py_eq (snd ry) pc = true) (combine (frows fr) (y_vals y)) agree /\
    (q == qn (length agree) / qn (length (frows fr)))%Q.
Proof.
  intros cl x cf pc sel bt X fr y R B S L. destruct (C01_classifier_predict _ _ _ _ _ _ _ _ _ R B S) as (preds & E & F).
  destruct (agree_tally _ pc _ _ _ F L) as (l & K & EL).
  assert (LL : length (map (fun v => py_eq v pc) (y_vals y)) = length preds) by (rewrite map_length, L; eapply Forall2_length; eauto).
  destruct (accuracy_value _ _ LL) as [_ A]. destruct A as (q & EA & V & _).
  { intros Z. apply (f_equal (@length bool)) in Z. rewrite map_length, L in Z. apply (su_rows _ _ _ _ _ _ _ _ S). destruct (frows fr); auto; discriminate. }
  exists q, l. split; [|split; auto].
  - unfold clf_score. rewrite E. cbn [bind]. rewrite (rd_pc _ _ _ _ _ R). cbn [attr bind]. rewrite EA. reflexivity.
  - rewrite V, EL, map_length, L. reflexivity.
Qed.
Print Assumptions C46_score.
(** and a different number of labels is rejected, for each of the four metrics *)
Theorem C46_length_mismatch : forall cl x cf pc sel bt X fr y,
  ready cl x cf pc sel -> c_bt cl = Some bt -> suits cl x cf sel bt X None fr -> length (y_vals y) <> length (frows fr) ->
  forall metric, In metric [score_accuracy; score_precision; score_recall; score_f1] -> clf_score metric cl X y = (cl, Err ValueError).
Proof.
  intros cl x cf pc sel bt X fr y R B S L metric I. destruct (C01_classifier_predict _ _ _ _ _ _ _ _ _ R B S) as (preds & E & F).
  unfold clf_score. rewrite E. cbn [bind]. rewrite (rd_pc _ _ _ _ _ R). cbn [attr bind]. f_equal. apply Forall2_length in F.
  destruct (score_lengths (map (fun v => py_eq v pc) (y_vals y)) preds) as (H1 & H2 & H3 & H4); [rewrite map_length; congruence|].
  destruct I as [<-|[<-|[<-|[<-|[]]]]]; auto.
Qed.
Print Assumptions C46_length_mismatch.

(** C47. One line per rule, in order: its number, the number of rows on which it holds, that number over all rows and, with labels,
    its precision, recall and F1 against "label is the positive class". *)
Definition line_of (bt : bin_transformer) (pc : pyval) (fr : frame) (ys : option (list pyval)) (i : nat) (r : rule) (l : stat_line) : Prop :=
  l_idx l = i /\ l_str l = rule_str r /\
  (exists covered, picks (fun rw => holds bt (fcols fr) rw r) (frows fr) covered /\ l_n l = length covered) /\
  (l_coverage l == qn (l_n l) / qn (length (frows fr)))%Q /\
  match ys with
  | None => l_perf l = None
  | Some vs => exists o, l_perf l = Some o /\ performance (fun rw => holds bt (fcols fr) rw r) pc (frows fr) vs o
  end.
Lemma count_picks {A} (P : A -> Prop) l ps : Forall2 (fun a p => p = true <-> P a) l ps -> exists k, picks P l k /\ count_true ps = length k.
Proof.
  unfold count_true. induction 1 as [|a p l ps H F (k & K & E)]; [exists []; split; [constructor|reflexivity]|]. cbn [filter]. destruct p.
  - exists (a :: k). split; [constructor; auto; apply H; auto|cbn; congruence].
  - exists k. split; [apply picks_no; auto; intros X; apply H in X; discriminate|exact E].
Qed.
Lemma mapM_lines {B} (g : nat * rule -> res B) (R : nat -> rule -> B -> Prop) l k :
  (forall i r, In r l -> exists b, g (i, r) = Ok b /\ R i r b) ->
  exists bs, mapM g (combine (seq k (length l)) l) = Ok bs /\ length bs = length l /\
    forall i r b, nth_error l i = Some r -> nth_error bs i = Some b -> R (k + i) r b.
Proof.
  revert k. induction l as [|r l IH]; intros k H.
  - exists []. split; [reflexivity|]. split; [reflexivity|]. intros [|i] ? ? X; discriminate.
  - destruct (H k r) as (b & E & Rb); [left; auto|]. destruct (IH (S k)) as (bs & E2 & L & N); [intros; apply H; right; auto|].
    exists (b :: bs). cbn [length seq combine mapM]. rewrite E. cbn [bind]. rewrite E2. split; [reflexivity|]. split; [cbn; lia|].
    intros [|i] r' b' X Y; cbn in X, Y.
    + injection X as <-. injection Y as <-. rewrite Nat.add_0_r. exact Rb.
    + replace (k + S i) with (S k + i) by lia. eapply N; eauto.
Qed.
Theorem C47_rule_stats : forall w cl x cf pc sel bt X names fr y,
  ready cl x cf pc sel -> c_bt cl = Some bt -> suits cl x cf sel bt X names fr ->
  (forall y', y = Some y' -> length (y_vals y') = length (frows fr)) ->
  exists lines, clf_rule_stats w cl X y None names = (cl, Ok lines) /\ length lines = length (rs_rules x) /\
    forall i r l, nth_error (rs_rules x) i = Some r -> nth_error lines i = Some l ->
      line_of bt pc fr (option_map y_vals y) i r l /\ l_examples l = None.
Proof.
  intros w cl x cf pc sel bt X names fr y R B S LY. destruct (prediction_frame_views _ _ _ _ _ _ _ _ _ R S) as (df & E & V).
  assert (LEN := views_length _ _ _ _ V).
  destruct (mapM_lines (fun ir : nat * rule => stat_of w cf pc df (option_map y_vals y) None (fst ir) (snd ir))
              (fun i r l => line_of bt pc fr (option_map y_vals y) i r l /\ l_examples l = None) (rs_rules x) 0) as (lines & EM & LL & N).
  { intros i r I. cbn [fst snd]. destruct (views_rule _ _ _ _ _ _ _ _ _ _ S V I) as (cov & EC & _ & _ & F). unfold stat_of. rewrite EC. cbn [bind].
    destruct (count_picks _ _ _ F) as (k & K & EK). destruct y as [y'|]; cbn [option_map].
    - destruct (score_perf _ pc _ (y_vals y') _ F (LY y' eq_refl)) as (p & rc & E1 & E2 & PF). cbv zeta in *. rewrite E1. cbn [bind]. rewrite E2. cbn [bind].
      eexists. split; [reflexivity|]. split; [|reflexivity]. unfold line_of. cbn [l_idx l_str l_n l_coverage l_perf].
      split; auto. split; auto. split; [exists k; auto|]. split; [rewrite LEN; reflexivity|]. eexists; split; [reflexivity|exact PF].
    - cbn [bind]. eexists. split; [reflexivity|]. split; [|reflexivity]. unfold line_of. cbn [l_idx l_str l_n l_coverage l_perf].
      split; auto. split; auto. split; [exists k; auto|]. split; [rewrite LEN; reflexivity|reflexivity]. }
  exists lines. split; [|split; auto].
  unfold clf_rule_stats, ensure_bt. rewrite (rd_rs _ _ _ _ _ R), B. cbn [bind]. rewrite E. cbn [bind]. rewrite (rd_cf _ _ _ _ _ R), (rd_pc _ _ _ _ _ R). cbn [attr bind].
  destruct y as [y'|]; cbn [option_map bind] in *; [rewrite (LY y' eq_refl), LEN, Nat.eqb_refl; cbn [bind]|]; rewrite EM; reflexivity.
Qed.
Print Assumptions C47_rule_stats.
