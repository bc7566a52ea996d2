(** * Prop_ClfProba.v : probabilities of a classifier object (C40-C44 through predict_proba and recalibrate_proba of the classifier, C68) *)
From Coq Require Import Lqa.
From Verif Require Import CalFacts ProbaFacts ClfFacts SessionFacts Demo Prop_Helpers Prop_Prep Prop_Fit Prop_Classifier Prop_FitModel Prop_Text.
Open Scope nat_scope.

(** C40 for a classifier. One pair per row, in the order (negative class, positive class), which classes_ names; both numbers lie strictly between 0 and 1
    and sum to 1. A row on which no rule holds gets the pair stored for uncovered examples; any other row the mean of the pairs of exactly the rules that
    hold on it. Only classes_ is written. *)
Theorem C40_classifier_proba : forall cl x cf pc sel bt X names fr,
  ready cl x cf pc sel -> c_bt cl = Some bt -> suits cl x cf sel bt X names fr -> calibrated x ->
  exists probas reasons unc,
    clf_predict_proba cl X names = (set_classes cl [PStr (lit "not " ++ py_str pc); pc], Ok (probas, reasons)) /\
    rs_uncov x = Some unc /\ Forall probabilities probas /\
    Forall2 (fun rw rr => picks (holds bt (fcols fr) rw) (rs_rules x) rr) (frows fr) reasons /\
    Forall2 (fun rw pr =>
      (~ some_holds bt (fcols fr) rw (rs_rules x) -> eq_pair pr (st_smooth unc)) /\
      (some_holds bt (fcols fr) rw (rs_rules x) -> exists covering ps, picks (holds bt (fcols fr) rw) (rs_rules x) covering /\
         Forall2 (fun r p => exists s, rstats r = Some s /\ st_smooth s = p) covering ps /\ mean_of ps pr)) (frows fr) probas.
Proof.
  intros cl x cf pc sel bt X names fr R B S C. destruct (prediction_frame_views _ _ _ _ _ _ _ _ _ R S) as (df & E & V).
  assert (G := vw_good _ _ _ _ V). assert (D := suits_distinct _ _ _ _ _ _ _ _ _ S V). assert (P := suits_present _ _ _ _ _ _ _ _ _ S V).
  destruct (predict_proba_exact x df C G D P) as (probas & preds & reasons & unc & E1 & E2 & EU & FP & F1 & F2).
  destruct (views_predict _ _ _ _ _ _ _ _ _ S V) as (preds' & E2' & FV). rewrite E2 in E2'. injection E2' as <-.
  assert (HR : Forall2 (fun rw rr => picks (holds bt (fcols fr) rw) (rs_rules x) rr) (frows fr) reasons).
  { eapply Forall2_trans; [|eapply (views_rows _ _ _ _ V (fun rw rd => forall r, In r (rs_rules x) -> (sat_rule (fcols df) rd r <-> holds bt (fcols fr) rw r)))|exact F1].
    - cbv beta. intros a b p H. apply picks_ext. auto.
    - intros i rw rd Hi Hd r I. eapply views_sat; eauto. eapply suits_conds; eauto. }
  exists probas, reasons, unc. split; [|split; [auto|split; [auto|split; [auto|]]]].
  - unfold clf_predict_proba. rewrite (rd_rs _ _ _ _ _ R), B. cbn [attr bind]. rewrite E. cbn [bind]. rewrite (rd_pc _ _ _ _ _ R). cbn [attr bind]. rewrite E1. reflexivity.
  - clear -FV HR F2. revert preds probas FV F2. induction HR as [|rw rr rows rs PK F IH]; intros preds probas FV F2.
    + inversion FV; subst. inversion F2. constructor.
    + inversion FV as [|? p ? preds' HP FV']; subst. cbn [combine] in F2. inversion F2 as [|? pr ? probas' H2 F2']; subst. constructor; [|eapply IH; eauto].
      cbn [fst snd] in H2. destruct H2 as [Hf Ht]. split.
      * intros N. destruct p; [exfalso; apply N; apply HP; auto|]. apply Hf; auto.
      * intros SH. destruct (Ht (proj2 HP SH)) as (ps & A & M). exists rr, ps. auto.
Qed.
Print Assumptions C40_classifier_proba.

(** C41 for a classifier. recalibrate_proba on labelled data succeeds (positive alpha) and every stored statistic is the count over the given rows: the rows on
    which the rule holds, resp. on which none holds, through the classifier's bins (or as they are, with discretize=False); nothing else changes. *)
Theorem C41_classifier_recalibrate : forall cl x cf pc bt X y names fr vs ms rm (discretize : bool),
  c_rs cl = Some x -> c_cf cl = Some cf -> c_pc cl = Some pc -> (if discretize then c_bt cl = Some bt else bt = bt_empty) ->
  (0 < h_alpha (c_hyper cl))%Q -> calibrates (rs_rules x) cf bt X y names fr vs ->
  exists x', clf_recalibrate cl X y names ms rm discretize = (set_rs cl x', Ok tt) /\ calibrated x' /\ rs_possible x' = rs_possible x /\
    Forall2 (fun r r' => conds r' = conds r /\ exists s, rstats r' = Some s /\
               stats_where (h_alpha (c_hyper cl)) (fun rw => holds bt (fcols fr) rw r) pc (frows fr) vs s) (rs_rules x) (rs_rules x') /\
    exists s, rs_uncov x' = Some s /\
      stats_where (h_alpha (c_hyper cl)) (fun rw => ~ some_holds bt (fcols fr) rw (rs_rules x)) pc (frows fr) vs s.
Proof.
  intros cl x cf pc bt X y names fr vs ms rm disc R F P B A C.
  destruct (calibration_views _ _ _ _ _ _ _ _ C) as (df & E & GD & DD & CP & L1 & L2 & U & V).
  assert (FP : features_present df (rs_rules x)) by (intros f M; apply U; eapply ca_rules; eauto).
  destruct (recalibrate_exact (h_alpha (c_hyper cl)) x df cf pc A GD DD FP CP) as (x' & ER & PO & FR & s & unc & EU & PU & SU).
  destruct (recalibrate_calibrated (h_alpha (c_hyper cl)) x df cf pc A GD DD FP CP) as (x2 & ER2 & CA). rewrite ER in ER2. injection ER2 as <-.
  assert (FF := forall2_calibration (rs_rules x) cf bt pc fr vs df L2 L1 GD (ca_rules _ _ _ _ _ _ _ _ C) V).
  exists x'. split; [|split; [auto|split; [auto|split]]].
  - unfold clf_recalibrate. rewrite F, P, R.
    assert (EP : match (if disc then b <- attr (c_bt cl) ;; Ok (Some b) else Ok None) with Err e => Err e | Ok o => preprocess_recalibrate X y cf names o end = Ok df).
    { destruct disc; [rewrite B; exact E|]. subst bt. rewrite <- E. unfold preprocess_recalibrate. destruct (check_input _ _ _ _ _); auto. }
    destruct (if disc then _ else _) as [o|]; [|discriminate]. rewrite EP. unfold recalibrate_run. rewrite recalibrate_min_eq, ER.
    unfold recalibrate in ER. binv ER. destruct v. rewrite E0. reflexivity.
  - apply Forall2_nth_intro; [eapply Forall2_length; eauto|]. intros i r r' Hr Hr'.
    assert (I : In r (rs_rules x)) by (eapply nth_error_In; eauto).
    assert (K := Forall2_nth_both _ _ _ FR i r r' Hr Hr'). destruct K as (K1 & s1 & cov & K2 & K3 & K4). split; auto. exists s1. split; auto.
    eapply stats_transfer; [|exists cov; split; eauto]. eapply Forall2_imp; [|exact FF]. cbv beta. intros a b [H1 H2]. split; auto.
  - exists s. split; auto. eapply stats_transfer; [|exists unc; split; eauto]. eapply Forall2_imp; [|exact FF]. cbv beta. intros a b [H1 H2]. split; auto.
    unfold sat_ruleset, some_holds. split; intros N (r & I & K); apply N; exists r; split; auto; apply H1; auto.
Qed.
Print Assumptions C41_classifier_recalibrate.

Lemma construct_conds l l' : map conds l = map conds l' -> construct_from_ruleset l = construct_from_ruleset l'.
Proof.
  intros H. unfold construct_from_ruleset. replace (get_conds l) with (get_conds l'); auto. unfold get_conds.
  generalize (@nil cond) as acc. revert l' H. induction l as [|a l IH]; intros [|a' l'] H acc; try discriminate; auto.
  injection H as H1 H2. cbn [fold_left]. rewrite H1. apply IH; auto.
Qed.
(** C42 for a classifier: recalibrate_proba, whatever its arguments and whether it succeeds or raises half-way, changes no later prediction. *)
Theorem C42_classifier_recalibration : forall cl X y names ms rm discretize X2 names2,
  snd (clf_predict (fst (clf_recalibrate cl X y names ms rm discretize)) X2 names2) = snd (clf_predict cl X2 names2).
Proof.
  intros cl X y names ms rm d X2 names2. destruct (clf_recalibrate cl X y names ms rm d) as [cl' o] eqn:E. cbn [fst].
  destruct (recalibrate_same _ _ _ _ _ _ _ _ _ E) as [_ SR _ _ _ _ _]. destruct (recal_attrs _ _ _ _ _ _ _ _ _ E) as (A1 & A2 & A3 & A4 & A5 & _).
  unfold clf_predict, ensure_bt. unfold rules_of in SR. rewrite A3.
  destruct (c_rs cl) as [x|] eqn:R, (c_rs cl') as [x'|] eqn:R'; try discriminate; auto. injection SR as SR.
  destruct (c_bt cl) as [bt|] eqn:B; cbn [bind snd].
  - unfold prediction_frame. rewrite A1, A2, A4, A5. destruct (bind (attr (c_cf cl)) _); cbn [bind]; auto. apply predict_conds; auto.
  - rewrite (construct_conds _ _ SR). destruct (construct_from_ruleset (rs_rules x)); cbn [bind]; auto.
    unfold prediction_frame, set_bt. cbn [c_cf c_pc c_sel c_feats]. rewrite A1, A2, A4, A5. destruct (bind (attr (c_cf cl)) _); cbn [bind]; auto. apply predict_conds; auto.
Qed.
Print Assumptions C42_classifier_recalibration.

(** C43 for a classifier: the two sample-size parameters have no effect whatsoever; in particular (refuting the documented halt) calibrating on three
    examples with min_samples=100 and require_min_samples=True replaces the probabilities. *)
Theorem C43_classifier_parameters_ignored : forall cl X y names ms rm ms' rm' discretize,
  clf_recalibrate cl X y names ms rm discretize = clf_recalibrate cl X y names ms' rm' discretize.
Proof.
  intros. unfold clf_recalibrate, recalibrate_run. destruct (c_cf cl) as [f|]; [|reflexivity]. destruct (c_pc cl) as [p|]; [|reflexivity]. destruct (if discretize then _ else _) as [bt|]; [|reflexivity].
  destruct (preprocess_recalibrate _ _ _ _ _) as [df|]; [|reflexivity]. destruct (c_rs cl) as [x|]; [|reflexivity]. rewrite !recalibrate_min_eq. reflexivity.
Qed.
Print Assumptions C43_classifier_parameters_ignored.
Theorem C43_classifier_refuted : exists cl',
  clf_recalibrate people_clf (DFrame newcomers) None None (Some 100%Z) true true = (cl', Ok tt) /\ length (frows newcomers) = 3 /\
  snd (clf_predict_proba people_clf (DFrame newcomers) None) <> snd (clf_predict_proba cl' (DFrame newcomers) None).
Proof. eexists. split; [vm_compute; reflexivity|]. split; [reflexivity|]. vm_compute. discriminate. Qed.
Print Assumptions C43_classifier_refuted.

(** C44 for a classifier. REFUTED: the fitted classifier gives probabilities; after add_rule predict_proba raises AttributeError on the same data. *)
Theorem C44_classifier_refuted : exists cl' probas reasons,
  snd (clf_predict_proba people_clf (DFrame newcomers) None) = Ok (probas, reasons) /\
  add_rule people_clf (OStr (lit "[u=b]")) = (cl', Ok tt) /\
  snd (clf_predict cl' (DFrame newcomers) None) = Ok [true; true; true] /\
  snd (clf_predict_proba cl' (DFrame newcomers) None) = Err AttributeError.
Proof. eexists _, _, _. split; [vm_compute; reflexivity|]. split; [vm_compute; reflexivity|]. split; vm_compute; reflexivity. Qed.
Print Assumptions C44_classifier_refuted.

(** ** The hypotheses are met by a classifier fitted with bins and three labelled newcomers *)
Lemma people_calibrated : calibrated people_rules.
Proof.
  unfold calibrated, people_rules. cbn [rs_uncov rs_rules]. split.
  - eexists. split; [reflexivity|]. unfold probabilities. vm_compute. intuition discriminate.
  - intros r [<-|[]]. eexists. split; [reflexivity|]. unfold probabilities. vm_compute. intuition discriminate.
Qed.
Lemma people_calibrates : calibrates (rs_rules people_rules) (s_ "t") people_bt (DFrame newcomers) None None newcomers [PInt 1; PInt 0; PInt 0].
Proof.
  destruct people_suits as [_ G NE D SB B _ U]. constructor; auto.
  - exists [7; 3; 9]. split; [|exact D]. apply cal_column; auto; [apply table_frame|apply has_col_iff; reflexivity|].
    split; [reflexivity|]. intros i rw v Hi Hv. apply value_at_cell; [destruct G; auto|].
    destruct i as [|[|[|[|i]]]]; cbn in Hi, Hv; try discriminate; injection Hi as <-; injection Hv as <-; vm_compute; reflexivity.
  - intros b (bins & g & EB & I & E). injection EB as <-. destruct I as [I|[]]. injection I as <- <-. discriminate.
Qed.
Example C40_classifier_nonvacuous : exists probas reasons unc,
    clf_predict_proba people_clf (DFrame newcomers) None = (set_classes people_clf [s_ "not 1"; PInt 1], Ok (probas, reasons)) /\
    rs_uncov people_rules = Some unc /\ Forall probabilities probas /\ Forall2 eq_pair probas [(1#6, 5#6); (3#4, 1#4); (1#6, 5#6)]%Q.
Proof.
  destruct (C40_classifier_proba _ _ _ _ _ _ _ _ _ people_ready eq_refl people_suits people_calibrated) as (probas & reasons & unc & E & EU & F & _).
  exists probas, reasons, unc. split; [exact E|]. split; auto. split; auto.
  assert (E' := E). vm_compute in E'. injection E' as <- <-. repeat constructor; vm_compute; reflexivity.
Qed.
Example C41_classifier_nonvacuous : exists x', clf_recalibrate people_clf (DFrame newcomers) None None (Some 20%Z) true true = (set_rs people_clf x', Ok tt) /\
  calibrated x' /\ map (fun r => option_map st_ns (rstats r)) (rs_rules x') = [Some (1, 1)] /\ option_map st_ns (rs_uncov x') = Some (1, 0).
Proof.
  destruct (C41_classifier_recalibrate people_clf people_rules (s_ "t") (PInt 1) people_bt (DFrame newcomers) None None newcomers _ (Some 20%Z) true true eq_refl eq_refl eq_refl eq_refl eq_refl people_calibrates)
    as (x' & E & C & _). exists x'. split; auto. split; auto. assert (E' := E). vm_compute in E'. injection E' as E'. subst x'. split; reflexivity.
Qed.

(** C68. "predict says True exactly where predict_proba gives the positive class more than one half."
    Proved when every rule's own positive probability exceeds 1/2 and that of the uncovered examples is at most 1/2 (missing: rulesets where this fails). *)
Definition decided (x : ruleset) : Prop :=
  (forall r s, In r (rs_rules x) -> rstats r = Some s -> (1#2 < snd (st_smooth s))%Q) /\
  (forall s, rs_uncov x = Some s -> (snd (st_smooth s) <= 1#2)%Q).
Lemma mean_above c (l : list (Q * Q)) m : mean_of l m -> (forall p, In p l -> (c < snd p)%Q) -> (c < snd m)%Q.
Proof.
  intros (NE & _ & M) H.
  assert (K : (l <> [] -> qn (length l) * c < fold_right (fun p s => snd p + s) 0 l)%Q /\ (qn (length l) * c <= fold_right (fun p s => snd p + s) 0 l)%Q).
  { clear NE M. induction l as [|p l IH]; cbn [fold_right length]; [split; [congruence|change (qn 0) with 0%Q; lra]|].
    destruct IH as [_ IH]; [intros; apply H; right; auto|]. assert (Z := qn_plus 1 (length l)). change (1 + length l) with (S (length l)) in Z. change (qn 1) with 1%Q in Z.
    assert (P := H p (or_introl eq_refl)). assert (L : (qn (S (length l)) * c < snd p + fold_right (fun p s => snd p + s) 0 l)%Q) by (rewrite Z; lra).
    split; [intros _; exact L|apply Qlt_le_weak; exact L]. }
  destruct K as [K _]. specialize (K NE). rewrite <- M in K.
  assert (QN : (0 < qn (length l))%Q) by (apply qn_pos; destruct l; cbn; [congruence|lia]).
  rewrite (Qmult_comm (qn _)) in K. apply Qmult_lt_r in K; auto.
Qed.
Theorem C68_predict_is_threshold_partial : forall cl x cf pc sel bt X names fr,
  ready cl x cf pc sel -> c_bt cl = Some bt -> suits cl x cf sel bt X names fr -> calibrated x -> decided x ->
  exists preds probas reasons, snd (clf_predict cl X names) = Ok preds /\ snd (clf_predict_proba cl X names) = Ok (probas, reasons) /\
    Forall2 (fun p pr => p = true <-> (1#2 < snd pr)%Q) preds probas.
Proof.
  intros cl x cf pc sel bt X names fr R B S C [D1 D2].
  destruct (C01_classifier_predict _ _ _ _ _ _ _ _ _ R B S) as (preds & E & F).
  destruct (C40_classifier_proba _ _ _ _ _ _ _ _ _ R B S C) as (probas & reasons & unc & E1 & EU & _ & _ & F1).
  exists preds, probas, reasons. rewrite E, E1. split; [auto|]. split; [auto|].
  clear -F F1 D1 D2 EU. revert preds F. induction F1 as [|rw pr rows probas [H1 H2] F1 IH]; intros preds F; inversion F as [|? p ? preds' HP F']; subst; constructor; [|apply IH; auto].
  split.
  - intros Hp. destruct (H2 (proj1 HP Hp)) as (cov & ps & PK & FS & M). eapply mean_above; [exact M|]. intros q Iq.
    assert (IC : incl cov (rs_rules x)). { clear -PK. induction PK; intros z Hz; cbn in *; auto; intuition. }
    clear -FS Iq IC D1. induction FS as [|r q' cov ps (s & Es & <-) FS IH]; [contradiction|]. destruct Iq as [<-|Iq].
    + eapply D1; [apply IC; left; reflexivity|exact Es].
    + apply IH; auto. intros z Hz. apply IC. right; auto.
  - intros L. destruct p; auto. exfalso. destruct H1 as [_ H1]; [intros Z; apply HP in Z; discriminate|]. rewrite H1 in L. specialize (D2 _ EU). lra.
Qed.
Print Assumptions C68_predict_is_threshold_partial.
Example C68_nonvacuous : decided people_rules /\ exists preds probas reasons, snd (clf_predict people_clf (DFrame newcomers) None) = Ok preds /\
  snd (clf_predict_proba people_clf (DFrame newcomers) None) = Ok (probas, reasons) /\ Forall2 (fun p pr => p = true <-> (1#2 < snd pr)%Q) preds probas /\
  preds = [true; false; true].
Proof.
  assert (D : decided people_rules).
  { split; [intros r s [<-|[]] E; injection E as <-; reflexivity|intros s E; injection E as <-; vm_compute; discriminate]. }
  split; auto. destruct (C68_predict_is_threshold_partial _ _ _ _ _ _ _ _ _ people_ready eq_refl people_suits people_calibrated D) as (preds & probas & reasons & E1 & E2 & F).
  exists preds, probas, reasons. repeat (split; auto). assert (V : snd (clf_predict people_clf (DFrame newcomers) None) = Ok [true; false; true]) by (vm_compute; reflexivity). congruence.
Qed.
(** REFUTED right after fit, both ways. With max_rules=1 the examples left uncovered are mostly positive: predicted False with positive probability 3/5.
    (The other way round also happens: see the next theorem.) *)
Definition leftover : list (list pyval) := [[s_ "x"]; [s_ "x"]; [s_ "x"]; [s_ "y"]; [s_ "y"]; [s_ "y"]].
Definition leftover_y : ydata := YList [PInt 1; PInt 1; PInt 1; PInt 1; PInt 1; PInt 0].
Definition leftover_clf : clf := fst (fit w1 (construct IREP_ [(P_prune, VQ 0); (P_max_rules, VOpt (Some 1%Z))]) (DRows leftover) (Some leftover_y) None None (Some [s_ "f"]) MNone true []).
Theorem C68_predict_is_threshold_refuted : exists probas reasons,
  snd (fit w1 (construct IREP_ [(P_prune, VQ 0); (P_max_rules, VOpt (Some 1%Z))]) (DRows leftover) (Some leftover_y) None None (Some [s_ "f"]) MNone true []) = Ok tt /\
  snd (clf_predict leftover_clf (DRows [[s_ "x"]; [s_ "y"]]) (Some [s_ "f"])) = Ok [true; false] /\
  snd (clf_predict_proba leftover_clf (DRows [[s_ "x"]; [s_ "y"]]) (Some [s_ "f"])) = Ok (probas, reasons) /\
  Forall2 eq_pair probas [(1#5, 4#5); (2#5, 3#5)]%Q.
Proof.
  eexists _, _. split; [vm_compute; reflexivity|]. split; [vm_compute; reflexivity|]. split; [vm_compute; reflexivity|]. repeat constructor; vm_compute; reflexivity.
Qed.
Print Assumptions C68_predict_is_threshold_refuted.
(** the other way: a rule the user starts from is kept although it is mostly wrong: predicted True with positive probability 1/5 *)
Definition started_clf : clf := fst (fit w1 (construct IREP_ [(P_prune, VQ 0)]) (DRows leftover) (Some (YList [PInt 0; PInt 0; PInt 0; PInt 1; PInt 1; PInt 1])) None None (Some [s_ "f"]) (MStr (lit "[[f=x]]")) true []).
Theorem C68_initial_model_refuted : exists probas reasons,
  snd (clf_predict started_clf (DRows [[s_ "x"]; [s_ "y"]]) (Some [s_ "f"])) = Ok [true; true] /\
  snd (clf_predict_proba started_clf (DRows [[s_ "x"]; [s_ "y"]]) (Some [s_ "f"])) = Ok (probas, reasons) /\
  Forall2 eq_pair probas [(4#5, 1#5); (1#5, 4#5)]%Q.
Proof.
  eexists _, _. split; [vm_compute; reflexivity|]. split; [vm_compute; reflexivity|]. repeat constructor; vm_compute; reflexivity.
Qed.
Print Assumptions C68_initial_model_refuted.
