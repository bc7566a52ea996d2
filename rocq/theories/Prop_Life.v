(** * Prop_Life.v : before fit (C89), and hand-made classifiers (C90) *)
From Verif Require Import SessionFacts Demo Prop_Helpers Prop_Fit Prop_Classifier Prop_ClfProba Prop_Session.
Open Scope nat_scope.

(** C89. Calls on a classifier that was only constructed. [no_start]: the call is not an init_ruleset that succeeds. *)
Definition no_start (k : call) : Prop := match k with InitRuleset m _ _ => forall x, ~ model_means m x | _ => True end.
(** what such a call raises: set_params nothing, a failing init_ruleset what is wrong with its argument, everything else AttributeError *)
Definition not_fitted (k : call) (o : option pyerr) : Prop :=
  match k with SetParams _ => o = None | InitRuleset m _ _ => exists e, frommodel m = Err e /\ o = Some e | _ => o = Some AttributeError end.
(** the hyperparameters given by constructor and set_params, in order *)
Definition settings (kw : list (param * pvalue)) (ks : list call) : list (param * pvalue) :=
  kw ++ flat_map (fun k => match k with SetParams l => l | _ => [] end) ks.
Lemma unfitted_step w a kw k : no_start k ->
  exists o, perform w (construct a kw) k = (construct a (settings kw [k]), o) /\ not_fitted k o.
Proof.
  intros N. unfold settings. cbn [flat_map]. rewrite app_nil_r.
  assert (SP : forall l, set_params (construct a kw) l = construct a (kw ++ l)).
  { intros l. unfold set_params, construct, set_hyper, new_clf. cbn [c_hyper c_alg]. rewrite fold_left_app. reflexivity. }
  destruct k; cbn [perform not_fitted]; try rewrite app_nil_r;
    try (exists (Some AttributeError); split; [reflexivity|reflexivity]).
  - exists None. rewrite SP. auto.
  - destruct (frommodel m) as [x|e] eqn:N'; [exfalso; exact (N x (from_means _ _ N'))|]. exists (Some e). unfold init_ruleset. rewrite N'. split; [reflexivity|]. eauto.
Qed.
Theorem C89_unfitted : forall w a kw ks cl os,
  (forall k, In k ks -> no_start k) -> perform_all w (construct a kw) ks = (cl, os) ->
  cl = construct a (settings kw ks) /\ Forall2 not_fitted ks os.
Proof.
  intros w a kw ks. revert kw. induction ks as [|k ks IH]; intros kw cl os N H.
  - injection H as <- <-. unfold settings. cbn [flat_map]. rewrite app_nil_r. auto.
  - cbn [perform_all] in H. destruct (unfitted_step w a kw k (N k (or_introl eq_refl))) as (o & E & Q). rewrite E in H.
    destruct (perform_all w (construct a (settings kw [k])) ks) as [c2 os2] eqn:E2. injection H as <- <-.
    destruct (IH _ _ _ (fun k' I => N k' (or_intror I)) E2) as (-> & F). split; [|constructor; auto].
    unfold settings. cbn [flat_map]. rewrite app_nil_r, <- app_assoc. reflexivity.
Qed.
Print Assumptions C89_unfitted.
Example C89_nonvacuous :
  let ks := [Predict (DFrame dated) None; AddRule (OStr ($"[c=p]")); SetParams [(P_k, VNat 1)]; InitRuleset MOther (s_ "c") (s_ "p");
             Recalibrate (DFrame dated) None None None true false; RemoveAt 0; Score score_accuracy (DFrame dated) (YList [])] in
  (forall k, In k ks -> no_start k) /\
  perform_all w1 (construct RIPPER_ []) ks =
    (construct RIPPER_ [(P_k, VNat 1)], [Some AttributeError; Some AttributeError; None; Some AttributeError; Some AttributeError; Some AttributeError; Some AttributeError]).
Proof.
  split; [|vm_compute; reflexivity]. intros k I. repeat (destruct I as [<-|I]; [solve [exact Logic.I|intros x M; inversion M]|]). destruct I.
Qed.

(** C90. Sessions on a classifier that is never fitted but may be given rules with init_ruleset. [given ks]: some init_ruleset in [ks] succeeded;
    [looked ks]: predict, score or rule_stats was called (successfully or not) after the rules were given. *)
Definition given (ks : list call) : Prop := exists m f p x, In (InitRuleset m f p) ks /\ model_means m x.
Definition looks (k : call) : Prop :=
  match k with Predict _ _ | PredictReasons _ _ | Score _ _ _ | RuleStats _ _ _ _ => True | _ => False end.
Definition looked (ks : list call) : Prop := exists before k after, ks = before ++ k :: after /\ given before /\ looks k.
Lemma perform_all_app w ks js : forall cl, fst (perform_all w cl (ks ++ js)) = fst (perform_all w (fst (perform_all w cl ks)) js).
Proof.
  induction ks as [|k ks IH]; intros cl; [reflexivity|]. cbn [app perform_all]. destruct (perform w cl k) as [c1 o].
  specialize (IH c1). destruct (perform_all w c1 (ks ++ js)), (perform_all w c1 ks). exact IH.
Qed.
(** the attributes that matter after a session *)
Record stage (ks : list call) (cl : clf) : Prop := mkstage {
  sg_given : given ks <-> c_rs cl <> None; sg_looked : looked ks <-> c_bt cl <> None; sg_empty : forall b, c_bt cl = Some b -> b = bt_empty;
  sg_ready : given ks -> exists x cf pc sel, ready cl x cf pc sel }.
Lemma given_snoc ks k : given (ks ++ [k]) <-> given ks \/ exists m f p x, k = InitRuleset m f p /\ model_means m x.
Proof.
  unfold given. split.
  - intros (m & f & p & x & I & M). apply in_app_or in I. destruct I as [I|[->|[]]]; [left|right]; exists m, f, p, x; auto.
  - intros [(m & f & p & x & I & M)|(m & f & p & x & -> & M)]; exists m, f, p, x; split; auto; apply in_or_app; [left; auto|right; left; auto].
Qed.
Lemma looked_snoc ks k : looked (ks ++ [k]) <-> looked ks \/ (given ks /\ looks k).
Proof.
  unfold looked. split.
  - intros (b & k' & t & E & G & L). destruct t as [|z t] using rev_ind.
    + apply app_inj_tail in E. destruct E as [-> ->]. right; auto.
    + clear IHt. left. exists b, k', t. split; auto. change (b ++ k' :: t ++ [z]) with (b ++ (k' :: t) ++ [z]) in E. rewrite app_assoc in E. apply app_inj_tail in E. tauto.
  - intros [(b & k' & t & -> & G & L)|(G & L)]; [exists b, k', (t ++ [k])|exists ks, k, []]; split; auto. rewrite <- app_assoc. reflexivity.
Qed.
Lemma ensure_stage cl : c_rs cl <> None -> c_bt (fst (ensure_bt cl)) = match c_bt cl with Some b => Some b | None => Some bt_empty end /\
  c_rs (fst (ensure_bt cl)) = c_rs cl /\ c_cf (fst (ensure_bt cl)) = c_cf cl /\ c_pc (fst (ensure_bt cl)) = c_pc cl /\ c_sel (fst (ensure_bt cl)) = c_sel cl /\ c_feats (fst (ensure_bt cl)) = c_feats cl.
Proof. intros H. unfold ensure_bt. destruct (c_bt cl) eqn:B; [cbn [fst]; rewrite B; auto 8|]. destruct (c_rs cl) eqn:R; [|congruence]. cbn. auto 8. Qed.
(** calls that keep everything but the statistics and the rules *)
Lemma stage_keep ks k cl cl' : stage ks cl -> ~ looks k -> (forall m f p, k <> InitRuleset m f p) ->
  (c_rs cl' = None <-> c_rs cl = None) -> c_bt cl' = c_bt cl -> c_cf cl' = c_cf cl -> c_pc cl' = c_pc cl -> c_sel cl' = c_sel cl -> c_feats cl' = c_feats cl -> stage (ks ++ [k]) cl'.
Proof.
  intros [A B C D] NL NI R T E1 E2 E3 E4. constructor.
  - rewrite given_snoc, A. split; [intros [H|(m & f & p & x & H & _)]; [tauto|exfalso; eapply NI; eauto]|tauto].
  - rewrite looked_snoc, B, T. tauto.
  - rewrite T. exact C.
  - rewrite given_snoc. intros [H|(m & f & p & x & H & _)]; [|exfalso; eapply NI; eauto]. destruct (D H) as (x & cf & pc & sel & [r1 r2 r3 r4 r5]).
    destruct (c_rs cl') as [x'|] eqn:R'; [|destruct R as [R _]; specialize (R eq_refl); congruence].
    exists x', cf, pc, sel. constructor; congruence.
Qed.
Lemma stage_look ks k cl cl' : stage ks cl -> looks k -> cl' = (match c_rs cl with None => cl | Some _ => fst (ensure_bt cl) end) -> stage (ks ++ [k]) cl'.
Proof.
  intros [A B C D] L ->. assert (NI : forall m f p, k <> InitRuleset m f p) by (intros m f p ->; exact L).
  destruct (c_rs cl) eqn:R.
  - assert (N : c_rs cl <> None) by congruence. destruct (ensure_stage cl N) as (T & E0 & E1 & E2 & E3 & E4).
    assert (G : given ks) by (apply A; congruence). constructor.
    + rewrite given_snoc, E0, R. split; [discriminate|]. auto.
    + rewrite looked_snoc, T. split; [intros _; destruct (c_bt cl); discriminate|]. auto.
    + rewrite T. intros b. destruct (c_bt cl) eqn:Bt; intros [= <-]; auto.
    + intros _. destruct (D G) as (x & cf & pc & sel & [r1 r2 r3 r4 r5]). exists x, cf, pc, sel. constructor; congruence.
  - assert (G : ~ given ks) by (rewrite A; tauto). constructor.
    + rewrite given_snoc, R. split; [|tauto]. intros [H|(m & f & p & x & H & _)]; [tauto|exfalso; eapply NI; eauto].
    + rewrite looked_snoc, B. tauto.
    + exact C.
    + rewrite given_snoc. intros [H|(m & f & p & x & H & _)]; [tauto|exfalso; eapply NI; eauto].
Qed.
Lemma edit_keeps cl f : (c_rs (fst (edit cl f)) = None <-> c_rs cl = None) /\ c_bt (fst (edit cl f)) = c_bt cl /\ c_cf (fst (edit cl f)) = c_cf cl /\
  c_pc (fst (edit cl f)) = c_pc cl /\ c_sel (fst (edit cl f)) = c_sel cl /\ c_feats (fst (edit cl f)) = c_feats cl.
Proof. unfold edit. destruct (c_rs cl) eqn:R; [|cbn [fst]; rewrite R; auto 8; tauto]. destruct (f _); cbn; rewrite ?R; split; auto 8; split; congruence. Qed.
Lemma pair_fst {A} (q : clf * res A) : fst (let '(c, o) := q in (c, failure o)) = fst q.
Proof. destruct q; reflexivity. Qed.
Lemma stage_step w ks k cl : stage ks cl -> stage (ks ++ [k]) (fst (perform w cl k)).
Proof.
  intros S. destruct k; cbn [perform]; rewrite ?pair_fst.
  - apply (stage_look ks _ cl); auto; [exact I|]. unfold clf_predict. destruct (c_rs cl); [|reflexivity]. destruct (ensure_bt cl); reflexivity.
  - apply (stage_look ks _ cl); auto; [exact I|]. unfold clf_predict_reasons. destruct (c_rs cl); [|reflexivity]. destruct (ensure_bt cl); reflexivity.
  - unfold clf_predict_proba. destruct (c_rs cl) eqn:R; [|apply (stage_keep ks _ cl); cbn; auto; try discriminate; tauto].
    destruct (bind _ _) as [[df p]|e]; apply (stage_keep ks _ cl); cbn; auto; try discriminate; tauto.
  - apply (stage_look ks _ cl); auto; [exact I|]. unfold clf_score, clf_predict. destruct (c_rs cl); [|reflexivity]. destruct (ensure_bt cl); reflexivity.
  - apply (stage_look ks _ cl); auto; [exact I|]. unfold clf_rule_stats. destruct (c_rs cl); [|reflexivity]. destruct (ensure_bt cl); reflexivity.
  - unfold clf_recalibrate.
    assert (K : stage (ks ++ [Recalibrate X y names min_samples require_min discretize]) cl) by (apply (stage_keep ks _ cl); cbn; auto; try discriminate; tauto).
    destruct (c_cf cl) eqn:Ec; [|exact K]. destruct (c_pc cl) eqn:Ep; [|exact K]. destruct (if discretize then _ else _); [|exact K].
    destruct (preprocess_recalibrate _ _ _ _ _); [|exact K]. destruct (c_rs cl) eqn:R; [|exact K]. destruct (recalibrate_run _ _ _ _ _ _ _) as [x' o].
    cbn [fst]. apply (stage_keep ks _ cl); cbn; auto; try discriminate; try congruence. rewrite R. split; discriminate.
  - apply (stage_keep ks _ cl); cbn; auto; try discriminate; tauto.
  - unfold add_rule. match goal with |- context [edit cl ?f] => destruct (edit_keeps cl f) as (? & ? & ? & ? & ? & ?) end. apply (stage_keep ks _ cl); auto; discriminate.
  - unfold remove_rule_at. match goal with |- context [edit cl ?f] => destruct (edit_keeps cl f) as (? & ? & ? & ? & ? & ?) end. apply (stage_keep ks _ cl); auto; discriminate.
  - unfold remove_rule. match goal with |- context [edit cl ?f] => destruct (edit_keeps cl f) as (? & ? & ? & ? & ? & ?) end. apply (stage_keep ks _ cl); auto; discriminate.
  - unfold insert_rule_at. match goal with |- context [edit cl ?f] => destruct (edit_keeps cl f) as (? & ? & ? & ? & ? & ?) end. apply (stage_keep ks _ cl); auto; discriminate.
  - unfold insert_rule. match goal with |- context [edit cl ?f] => destruct (edit_keeps cl f) as (? & ? & ? & ? & ? & ?) end. apply (stage_keep ks _ cl); auto; discriminate.
  - unfold replace_rule_at. match goal with |- context [edit cl ?f] => destruct (edit_keeps cl f) as (? & ? & ? & ? & ? & ?) end. apply (stage_keep ks _ cl); auto; discriminate.
  - unfold replace_rule. match goal with |- context [edit cl ?f] => destruct (edit_keeps cl f) as (? & ? & ? & ? & ? & ?) end. apply (stage_keep ks _ cl); auto; discriminate.
  - unfold init_ruleset. destruct S as [A B C D]. destruct (frommodel m) as [x|e] eqn:M.
    + assert (G : given (ks ++ [InitRuleset m f p])) by (apply given_snoc; right; exists m, f, p, x; split; auto; apply from_means; auto).
      constructor; cbn.
      * split; [discriminate|auto].
      * rewrite looked_snoc, B. cbn [looks]. tauto.
      * exact C.
      * intros _. exists x, f, p, (selected_features (rs_rules x)). constructor; try reflexivity. discriminate.
    + assert (NM : forall y, ~ model_means m y) by (intros y My; apply means_from in My; congruence).
      cbn [fst]. constructor.
      * rewrite given_snoc, A. split; [|auto]. intros [H|(m' & f' & p' & y & [= -> -> ->] & My)]; [auto|exfalso; exact (NM y My)].
      * rewrite looked_snoc, B. cbn [looks]. tauto.
      * exact C.
      * rewrite given_snoc. intros [H|(m' & f' & p' & y & [= -> -> ->] & My)]; [auto|exfalso; exact (NM y My)].
Qed.
Lemma session_stage w a kw ks : stage ks (fst (perform_all w (construct a kw) ks)).
Proof.
  induction ks as [|k ks IH] using rev_ind.
  - constructor; cbn; try (split; [|tauto]).
    + intros (m & f & p & x & [] & _).
    + intros (b & k & t & E & _). destruct b; discriminate.
    + discriminate.
    + intros (m & f & p & x & [] & _).
  - rewrite perform_all_app. cbn [perform_all]. pose proof (stage_step w ks k _ IH) as S. destruct (perform w _ k). exact S.
Qed.
(** Until then, predict_proba and recalibrate_proba (with its default discretize=True) raise AttributeError on any data and change nothing ... *)
Theorem C90_not_yet : forall w a kw ks X y names min_samples require_min,
  let cl := fst (perform_all w (construct a kw) ks) in
  ~ looked ks ->
  clf_predict_proba cl X names = (cl, Err AttributeError) /\
  clf_recalibrate cl X y names min_samples require_min true = (cl, Err AttributeError).
Proof.
  intros w a kw ks X y names ms rm cl NL. destruct (session_stage w a kw ks) as [A B C D]. fold cl in A, B, C, D.
  assert (T : c_bt cl = None) by (destruct (c_bt cl) eqn:T; auto; exfalso; apply NL, B; discriminate). split.
  - unfold clf_predict_proba. destruct (c_rs cl); auto. rewrite T. reflexivity.
  - unfold clf_recalibrate. destruct (c_cf cl); auto. destruct (c_pc cl); auto. rewrite T. reflexivity.
Qed.
Print Assumptions C90_not_yet.
(** ... afterwards discretize makes no difference, and on every table that has the features, predict tells exactly which rows satisfy a rule of the
    classifier, and predict_proba gives probabilities once all its rules are calibrated. *)
Theorem C90_then : forall w a kw ks,
  let cl := fst (perform_all w (construct a kw) ks) in
  looked ks ->
  (forall X y names min_samples require_min,
     clf_recalibrate cl X y names min_samples require_min true = clf_recalibrate cl X y names min_samples require_min false) /\
  exists x cf pc sel, ready cl x cf pc sel /\
    forall X names fr, prediction_input X names cf fr -> good_frame fr -> frows fr <> [] -> distinct_labels fr ->
      (forall f, In f sel -> usable fr cf f) -> (forall f, mentions (rs_rules x) f -> usable fr cf f) ->
      (exists preds, clf_predict cl X names = (cl, Ok preds) /\ Forall2 (fun rw p => p = true <-> sat_ruleset (fcols fr) rw (rs_rules x)) (frows fr) preds) /\
      (calibrated x -> exists probas reasons, snd (clf_predict_proba cl X names) = Ok (probas, reasons) /\ length probas = length (frows fr) /\ Forall probabilities probas).
Proof.
  intros w a kw ks cl L. destruct (session_stage w a kw ks) as [A B C D]. fold cl in A, B, C, D.
  destruct (c_bt cl) as [b|] eqn:T; [|exfalso; apply B in L; auto]. assert (b = bt_empty) by auto. subst b.
  assert (G : given ks). { destruct L as (b & k & t & -> & (m & f & p & x & I & M) & _). exists m, f, p, x. split; auto. apply in_or_app. auto. }
  split.
  - intros X y names ms rm. unfold clf_recalibrate. rewrite T. cbn [attr bind]. reflexivity.
  - destruct (D G) as (x & cf & pc & sel & R). exists x, cf, pc, sel. split; auto. intros X names fr PI GF NE DL US UR.
    assert (S : suits cl x cf sel bt_empty X names fr).
    { constructor; auto; [left; reflexivity|intros f b' B'; exfalso; eapply no_bins; eauto]. }
    split.
    + destruct (C01_classifier_predict _ _ _ _ _ _ _ _ _ R T S) as (preds & E & F). exists preds. split; auto.
      eapply Forall2_imp; [|exact F]. intros rw q H. rewrite <- some_holds_raw. exact H.
    + intros CA. destruct (C40_classifier_proba _ _ _ _ _ _ _ _ _ R T S CA) as (probas & reasons & unc & E & _ & PR & _ & F).
      exists probas, reasons. rewrite E. split; [reflexivity|]. split; auto. symmetry. eapply Forall2_length; exact F.
Qed.
Print Assumptions C90_then.
(** the two theorems in one session: probabilities asked too early, again after one predict, and again after recalibrating *)
Definition handmade : list call := [InitRuleset (MStr ($"[[u=b] V [v=4 ^ u=a]]")) (s_ "t") (PInt 1)].
Definition some_rows : frame := mkframe [s_ "u"; s_ "v"] [mkrow 0 [s_ "b"; s_ "4"]; mkrow 1 [s_ "a"; s_ "4"]; mkrow 2 [s_ "a"; s_ "5"]].
Definition some_labels : ydata := YList [PInt 1; PInt 1; PInt 0].
Example C90_nonvacuous : ~ looked handmade /\ looked (handmade ++ [Predict (DFrame some_rows) None]) /\
  let cl1 := fst (perform_all w1 (construct IREP_ []) handmade) in
  let cl2 := fst (clf_predict cl1 (DFrame some_rows) None) in
  let '(cl3, r) := clf_recalibrate cl2 (DFrame some_rows) (Some some_labels) None (Some 1%Z) true true in
  snd (clf_predict_proba cl1 (DFrame some_rows) None) = Err AttributeError /\
  snd (clf_recalibrate cl1 (DFrame some_rows) (Some some_labels) None (Some 1%Z) true true) = Err AttributeError /\
  snd (clf_predict cl1 (DFrame some_rows) None) = Ok [true; true; false] /\
  snd (clf_predict_proba cl2 (DFrame some_rows) None) = Err AttributeError /\ r = Ok tt /\
  exists p, snd (clf_predict_proba cl3 (DFrame some_rows) None) = Ok p /\ length (fst p) = 3.
Proof.
  split; [|split].
  - intros (b & k & t & E & G & L). destruct b as [|? [|? b]]; try discriminate. injection E as <- _. destruct L.
  - exists handmade, (Predict (DFrame some_rows) None), []. split; [reflexivity|]. split; [|exact I].
    eexists _, _, _, _. split; [left; reflexivity|]. apply from_means. vm_compute. reflexivity.
  - vm_compute. do 5 (split; [reflexivity|]). eexists. split; reflexivity.
Qed.
