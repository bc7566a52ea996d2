(** * Prop_Session.v : histories of calls on a classifier, hyperparameters, initialised models, fidelity (C06, C13, C54, C56, C58, C60, C62) *)
From Verif Require Import SessionFacts Demo Prop_Helpers Prop_Prep Prop_Fit Prop_Classifier Prop_FitModel Prop_Text.
Open Scope nat_scope.

(** C56 / C13. Any history of predictions, probabilities, scores, statistics, recalibrations, parameter changes and edits, successful or not,
    acts on the rules exactly like the specification machine on a plain list: prediction-side calls leave the list alone, edits edit it,
    failing edits leave it alone. *)
Theorem C56_history : forall w calls cl cl' outcomes l,
  rules_of cl = Some l -> perform_all w cl calls = (cl', outcomes) ->
  exists l', spec_run calls l outcomes l' /\ rules_of cl' = Some l'.
Proof.
  intros w calls. induction calls as [|k ks IH]; intros cl cl' os l R H; cbn [perform_all] in H.
  - injection H as <- <-. exists l. split; [constructor|auto].
  - destruct (perform w cl k) as [c1 o] eqn:E1. destruct (perform_all w c1 ks) as [c2 os2] eqn:E2. injection H as <- <-.
    destruct (perform_spec _ _ _ _ _ _ R E1) as (l1 & S1 & R1). destruct (IH _ _ _ _ R1 E2) as (l2 & S2 & R2). exists l2. split; auto. econstructor; eauto.
Qed.
Print Assumptions C56_history.

(** Prediction-side calls alone leave the whole model as it was, bins included once they exist; so predictions are the same before and after *)
Theorem C56_predictions_unchanged : forall w calls cl cl' outcomes,
  Forall prediction_side calls -> perform_all w cl calls = (cl', outcomes) ->
  rules_of cl' = rules_of cl /\
  forall bt X names preds, c_bt cl = Some bt -> clf_predict cl X names = (cl, Ok preds) -> clf_predict cl' X names = (cl', Ok preds).
Proof.
  intros w calls. assert (K : forall cl cl' outcomes, Forall prediction_side calls -> perform_all w cl calls = (cl', outcomes) -> same_model cl cl').
  { induction calls as [|k ks IH]; intros cl cl' os F H; cbn [perform_all] in H; [injection H as <- <-; apply same_refl|]. inversion F as [|? ? F1 F2]; subst.
    destruct (perform w cl k) as [c1 o] eqn:E1. destruct (perform_all w c1 ks) as [c2 os2] eqn:E2. injection H as <- <-.
    eapply same_trans; [eapply prediction_side_same; eauto|eapply IH; eauto]. }
  intros cl cl' outcomes F H. destruct (K _ _ _ F H) as [SA SR SC SP SS SF SB]. split; auto. intros bt X names preds B P.
  unfold clf_predict, ensure_bt in *. rewrite B in P. rewrite (SB bt B). destruct (c_rs cl) as [x|] eqn:R; [|discriminate].
  unfold rules_of in SR. rewrite R in SR. destruct (c_rs cl') as [x'|] eqn:R'; [|discriminate]. injection SR as SR.
  cbn [bind] in *. unfold prediction_frame, attr in *. rewrite SC, SP, SS, SF. destruct (bind (match c_cf cl with Some _ => _ | None => _ end) _) as [df|e] eqn:E; [|discriminate].
  cbn [bind] in *. injection P as P. rewrite <- P. f_equal. apply predict_conds. auto.
Qed.
Print Assumptions C56_predictions_unchanged.

(** After any history, predict is the DNF of the rules the specification machine ends with *)
Definition initialising (k : call) : Prop := match k with InitRuleset _ _ _ => True | _ => False end.
Theorem C56_predict_current_rules : forall w calls cl x cf pc sel bt cl' outcomes,
  ready cl x cf pc sel -> c_bt cl = Some bt -> Forall (fun k => ~ initialising k) calls -> perform_all w cl calls = (cl', outcomes) ->
  exists x' l', spec_run calls (map conds (rs_rules x)) outcomes l' /\ map conds (rs_rules x') = l' /\ c_rs cl' = Some x' /\
    forall X names fr, suits cl' x' cf sel bt X names fr ->
      exists preds, clf_predict cl' X names = (cl', Ok preds) /\
        Forall2 (fun rw p => p = true <-> some_holds bt (fcols fr) rw (rs_rules x')) (frows fr) preds.
Proof.
  intros w calls cl x cf pc sel bt cl' outcomes R B F H.
  assert (RO : rules_of cl = Some (map conds (rs_rules x))) by (unfold rules_of; rewrite (rd_rs _ _ _ _ _ R); reflexivity).
  destruct (C56_history _ _ _ _ _ _ RO H) as (l' & S & R').
  destruct (rules_some _ _ R') as (x' & RX & EL). exists x', l'. split; auto. split; auto. split; auto. intros X names fr SU.
  assert (K : c_cf cl' = Some cf /\ c_pc cl' = Some pc /\ c_sel cl' = Some sel /\ c_feats cl' <> None /\ c_bt cl' = Some bt).
  { destruct R as [_ R2 R3 R4 R5]. clear S SU RO R' RX EL. revert cl cl' outcomes R2 R3 R4 R5 B F H. induction calls as [|k ks IH]; intros cl cl' os R2 R3 R4 R5 B F H; cbn [perform_all] in H.
    - injection H as <- <-. auto.
    - destruct (perform w cl k) as [c1 o] eqn:E1. destruct (perform_all w c1 ks) as [c2 os2] eqn:E2. injection H as <- <-. inversion F as [|? ? F1 F2]; subst.
      assert (Z : c_cf c1 = c_cf cl /\ c_pc c1 = c_pc cl /\ c_sel c1 = c_sel cl /\ c_feats c1 = c_feats cl /\ (forall b, c_bt cl = Some b -> c_bt c1 = Some b)).
      { assert (PS : prediction_side k -> c_cf c1 = c_cf cl /\ c_pc c1 = c_pc cl /\ c_sel c1 = c_sel cl /\ c_feats c1 = c_feats cl /\ (forall b, c_bt cl = Some b -> c_bt c1 = Some b)).
        { intros P. destruct (prediction_side_same _ _ _ _ _ P E1). auto. }
        assert (ED : forall f o', edit cl f = (c1, o') -> c_cf c1 = c_cf cl /\ c_pc c1 = c_pc cl /\ c_sel c1 = c_sel cl /\ c_feats c1 = c_feats cl /\ (forall b, c_bt cl = Some b -> c_bt c1 = Some b)).
        { intros f o' Q. unfold edit in Q. destruct (c_rs cl) as [y|]; [|injection Q as <- _; auto]. destruct (f (rs_rules y)); injection Q as <- _; auto 6. }
        destruct k; try (apply PS; exact I); cbn [perform] in E1; try (exfalso; apply F1; exact I).
        - unfold add_rule in E1. destruct (edit cl _) as [c9 o9] eqn:Q. injection E1 as <- _. eapply ED; exact Q.
        - unfold remove_rule_at in E1. destruct (edit cl _) as [c9 o9] eqn:Q. injection E1 as <- _. eapply ED; exact Q.
        - unfold remove_rule in E1. destruct (edit cl _) as [c9 o9] eqn:Q. injection E1 as <- _. eapply ED; exact Q.
        - unfold insert_rule_at in E1. destruct (edit cl _) as [c9 o9] eqn:Q. injection E1 as <- _. eapply ED; exact Q.
        - unfold insert_rule in E1. destruct (edit cl _) as [c9 o9] eqn:Q. injection E1 as <- _. eapply ED; exact Q.
        - unfold replace_rule_at in E1. destruct (edit cl _) as [c9 o9] eqn:Q. injection E1 as <- _. eapply ED; exact Q.
        - unfold replace_rule in E1. destruct (edit cl _) as [c9 o9] eqn:Q. injection E1 as <- _. eapply ED; exact Q. }
      destruct Z as (Z1 & Z2 & Z3 & Z4 & Z5). apply (IH c1 c2 os2); auto; try congruence. }
  destruct K as (K1 & K2 & K3 & K4 & K5). apply (C01_classifier_predict cl' x' cf pc sel bt); auto. constructor; auto.
Qed.
Print Assumptions C56_predict_current_rules.

(** A concrete history on the fitted classifier of Prop_FitModel: predictions, failing and succeeding edits, a failing prediction *)
Definition demo_calls : list call :=
  [Predict (DFrame newcomers) None; AddRule (OStr ($"[u=b]")); PredictProba (DFrame newcomers) None; RemoveAt 7; RemoveRule (OStr ($"[u=zz]"));
   InsertAt 0 (OStr ($"[u=a ^ v=>-1.0]")); Predict (DRows []) None; ReplaceRule (OStr ($"[u=b]")) (OStr ($"[u=zzz]")); RemoveAt 1].
Example C56_nonvacuous :
  snd (perform_all w1 people_clf demo_calls) =
    [None; None; Some AttributeError; Some IndexError; Some ValueError; None; Some ValueError; None; None] /\
  rules_of (fst (perform_all w1 people_clf demo_calls)) = Some [[c_ "u" "a"; c_ "v" ">-1.0"]; [c_ "u" "zzz"]] /\
  Forall (fun k => ~ initialising k) demo_calls.
Proof. split; [vm_compute; reflexivity|]. split; [vm_compute; reflexivity|]. repeat constructor; cbn; tauto. Qed.

(** C13 for a classifier: an edit that raises leaves the classifier exactly as it was. *)
Definition editing (k : call) : Prop :=
  match k with AddRule _ | RemoveAt _ | RemoveRule _ | InsertAt _ _ | InsertRule _ _ | ReplaceAt _ _ | ReplaceRule _ _ => True | _ => False end.
Theorem C13_failed_edit_changes_nothing : forall w cl k cl' e, editing k -> perform w cl k = (cl', Some e) -> cl' = cl.
Proof.
  intros w cl k cl' e ED H.
  assert (K : forall f o, edit cl f = (cl', o) -> failure o = Some e -> cl' = cl).
  { intros f o Q FO. unfold edit in Q. destruct (c_rs cl) as [y|]; [|injection Q as <- _; auto]. destruct (f (rs_rules y)); injection Q as <- <-; auto. discriminate. }
  destruct k; cbn [editing] in ED; try contradiction; cbn [perform] in H;
    [unfold add_rule in H|unfold remove_rule_at in H|unfold remove_rule in H|unfold insert_rule_at in H|unfold insert_rule in H|unfold replace_rule_at in H|unfold replace_rule in H];
    match type of H with context [edit cl ?f] => destruct (edit cl f) as [c o9] eqn:Q end; injection H as <- FO; eapply K; eauto.
Qed.
Print Assumptions C13_failed_edit_changes_nothing.
Example C13_failed_edit_nonvacuous : perform w1 people_clf (ReplaceAt 5 (OStr ($"[u=b]"))) = (people_clf, Some IndexError) /\
  perform w1 people_clf (ReplaceAt 0 (OStr ($"[u]"))) = (people_clf, Some ValueError).
Proof. split; vm_compute; reflexivity. Qed.

(** C06 for a classifier: a missing feature (recorded at fit time) is reported, never ignored *)
Theorem C06_classifier_missing : forall cl x cf pc sel bt X names fr f,
  ready cl x cf pc sel -> c_bt cl = Some bt -> prediction_input X names cf fr -> good_frame fr -> frows fr <> [] ->
  In f sel -> ~ column_present fr f -> py_eq cf f = false -> clf_predict cl X names = (cl, Err IndexError).
Proof.
  intros cl x cf pc sel bt X names fr f R B PI G NE I NP NC. destruct R as [R1 R2 R3 R4 R5]. unfold clf_predict, ensure_bt. rewrite R1, B. cbn [bind].
  destruct (prediction_df_spec _ _ _ _ PI G) as (fr1 & E1 & G1 & L1 & P1 & V1).
  unfold prediction_frame, attr. rewrite R2, R3, R4. cbn [bind]. destruct (c_feats cl); [|congruence]. cbn [bind]. unfold preprocess_prediction, check_input.
  rewrite (pi_len _ _ _ _ PI). destruct (Nat.eqb_spec (length (frows fr)) 0) as [Z|Z]; [destruct (frows fr); [congruence|discriminate]|]. cbn [negb bind]. rewrite E1. cbn [bind].
  unfold check_features. destruct (forallb (has_col fr1) sel) eqn:F; [|reflexivity]. rewrite forallb_forall in F. specialize (F f I). apply has_col_iff in F. apply P1 in F; auto. contradiction.
Qed.
Print Assumptions C06_classifier_missing.
Example C06_classifier_nonvacuous : clf_predict people_clf (DFrame only_u) None = (people_clf, Err IndexError).
Proof.
  eapply C06_classifier_missing; [exact people_ready|vm_compute; reflexivity|apply predict_plain; [reflexivity|apply table_frame]|apply good_frameb_ok; reflexivity|discriminate|left; reflexivity| |reflexivity].
  intros H. apply has_col_iff in H. discriminate.
Qed.

(** C54, partial: every hyperparameter but min_rule_samples survives get_params / reconstruction, for both classes and any values *)
Theorem C54_rebuild_partial : forall cl p, accepts (c_alg cl) p -> p <> P_min_rule_samples ->
  param_value (c_hyper (construct (c_alg cl) (get_params cl))) p = param_value (c_hyper cl) p.
Proof. intros [a h] p A N. destruct a, h; destruct p; cbn in *; try reflexivity; try (destruct A; congruence); congruence. Qed.
Print Assumptions C54_rebuild_partial.
(** Missing: min_rule_samples is not listed by get_params, so it falls back to its default. *)
Theorem C54_min_rule_samples_refuted : forall a m,
  param_value (c_hyper (construct a [(P_min_rule_samples, VOpt (Some m))])) P_min_rule_samples = VOpt (Some m) /\
  param_value (c_hyper (construct a (get_params (construct a [(P_min_rule_samples, VOpt (Some m))])))) P_min_rule_samples = VOpt None.
Proof. intros [] m; split; reflexivity. Qed.
Print Assumptions C54_min_rule_samples_refuted.
Example C54_nonvacuous : param_value (c_hyper (construct RIPPER_ (get_params (construct RIPPER_ [(P_k, VNat 7); (P_alpha, VQ (1#2)); (P_max_rules, VOpt (Some 3%Z))])))) P_k = VNat 7.
Proof. reflexivity. Qed.

(** C62. A keyword argument of fit that names a listed hyperparameter overrides it, and it is what the fitted classifier keeps *)
Lemma set_param_get h p v : fits p v -> param_value (set_param h p v) p = v.
Proof. destruct h, p, v; cbn; try contradiction; reflexivity. Qed.
Lemma set_param_other h p v q : p <> q -> param_value (set_param h p v) q = param_value h q.
Proof. destruct h, p, v, q; cbn; intros; congruence || reflexivity. Qed.
Lemma fold_param_other l : forall h q, ~ In q (map fst l) -> param_value (fold_left (fun h pv => set_param h (fst pv) (snd pv)) l h) q = param_value h q.
Proof. induction l as [|[p v] l IH]; intros h q N; cbn [fold_left]; auto. rewrite IH by (intros X; apply N; right; auto). apply set_param_other. intros E. apply N. left. exact E. Qed.
Lemma fold_param_get l : forall h p v, NoDup (map fst l) -> In (p, v) l -> fits p v -> param_value (fold_left (fun h pv => set_param h (fst pv) (snd pv)) l h) p = v.
Proof.
  induction l as [|[q w] l IH]; intros h p v N I F; [contradiction|]. inversion N as [|? ? N1 N2]; subst. cbn [fold_left fst snd]. destruct I as [E|I].
  - injection E as -> ->. rewrite fold_param_other by auto. apply set_param_get; auto.
  - apply IH; auto.
Qed.
Lemma param_eqb_eq p q : param_eqb p q = true <-> p = q. Proof. destruct p, q; cbn; split; congruence. Qed.
Lemma valid_filter_In a (l : list (param * pvalue)) p v : In (p, v) (filter (fun pv => existsb (param_eqb (fst pv)) (valid_params a)) l) <-> In (p, v) l /\ In p (valid_params a).
Proof.
  rewrite filter_In. cbn [fst]. rewrite existsb_exists. split; intros [H1 H2]; split; auto.
  - destruct H2 as (q & I & E). apply param_eqb_eq in E. subst q. exact I.
  - exists p. split; auto. apply param_eqb_eq. reflexivity.
Qed.
Theorem C62_listed_keywords_take_effect_partial : forall w cl X y cf pc names init cnopt kw cl',
  NoDup (map fst kw) -> fit w cl X y cf pc names init cnopt kw = (cl', Ok tt) ->
  (forall p v, In (p, v) kw -> In p (valid_params (c_alg cl)) -> fits p v -> param_value (c_hyper cl') p = v) /\
  (forall p, ~ In p (map fst kw) -> param_value (c_hyper cl') p = param_value (c_hyper cl) p).
Proof.
  intros w cl X y cf pc names init cnopt kw cl' ND H. destruct (fit_fitted _ _ _ _ _ _ _ _ _ _ _ H) as (df & f & p & bt & xi & x1 & x2 & FT).
  assert (E := ft_hyper _ _ _ _ _ _ _ _ _ _ _ _ _ _ _ _ _ _ FT). rewrite E. unfold hyper_of, set_fit_params, set_params. cbn [c_hyper set_hyper].
  assert (SUB : forall q, In q (map fst (filter (fun pv => existsb (param_eqb (fst pv)) (valid_params (c_alg cl))) kw)) -> In q (map fst kw)).
  { intros q I. apply in_map_iff in I. destruct I as ([q' v'] & <- & I). apply filter_In in I. destruct I as [I _]. apply in_map_iff. eexists; split; [|exact I]. reflexivity. }
  split.
  - intros q v I V F. apply fold_param_get; auto.
    + apply NoDup_map_filter; auto.
    + apply valid_filter_In; auto.
  - intros q N. apply fold_param_other. intros I. apply N, SUB, I.
Qed.
Print Assumptions C62_listed_keywords_take_effect_partial.
(** Missing: min_rule_samples is silently ignored, whatever its value, by both learners (so is every name that is not listed). *)
Theorem C62_min_rule_samples_refuted : forall w cl X y cf pc names init cnopt m,
  fit w cl X y cf pc names init cnopt [(P_min_rule_samples, VOpt m)] = fit w cl X y cf pc names init cnopt [].
Proof.
  intros w cl X y cf pc names init cnopt m. unfold fit, set_fit_params. destruct (c_alg cl) eqn:A; reflexivity.
Qed.
Print Assumptions C62_min_rule_samples_refuted.
Example C62_nonvacuous : param_value (c_hyper (fst (fit w1 irep_bins2 (DRows people) (Some people_y) None None (Some [s_ "u"; s_ "v"]) MNone true [(P_max_rules, VOpt (Some 1%Z))]))) P_max_rules = VOpt (Some 1%Z) /\
  snd (fit w1 irep_bins2 (DRows people) (Some people_y) None None (Some [s_ "u"; s_ "v"]) MNone true [(P_max_rules, VOpt (Some 1%Z))]) = Ok tt.
Proof. split; vm_compute; reflexivity. Qed.

(** ** C58: models given as text or rules *)
Lemma no_bins f b : ~ bins_for bt_empty f b.
Proof. intros (bins & g & E & _). discriminate. Qed.
Lemma some_holds_raw cols rw rs : some_holds bt_empty cols rw rs <-> sat_ruleset cols rw rs.
Proof.
  assert (S : forall f v w, shown bt_empty f v w <-> w = v).
  { intros f v w. split; [|intros ->; right; left; split; auto using no_bins].
    intros [(_ & E)|[(_ & E)|(_ & ivs & B & _)]]; auto. exfalso. eapply no_bins; eauto. }
  split; intros (r & I & H); exists r; split; auto; intros c J; destruct (H c J) as (w & V & E); exists w.
  - destruct V as (v & V & SH). apply S in SH. subst. auto.
  - split; auto. exists w. split; auto. apply S. reflexivity.
Qed.
Lemma no_dash_positions s i : ~ In (ch "-") s -> dash_positions i s = [].
Proof.
  revert i. induction s as [|c s IH]; intros i H; cbn [dash_positions]; auto. rewrite IH by (intros X; apply H; right; auto).
  destruct (Ascii.eqb_spec c (ch "-")) as [->|N]; [exfalso; apply H; left; auto|reflexivity].
Qed.
Lemma prefixb_dash s : ~ In (ch "-") s -> prefixb ($" - ") s = false.
Proof.
  intros H. destruct s as [|a [|b s]]; [reflexivity|change (Ascii.eqb (ch " ") a && false = false); destruct (Ascii.eqb (ch " ") a); reflexivity|].
  change (prefixb ($" - ") (a :: b :: s)) with (Ascii.eqb (ch " ") a && (Ascii.eqb (ch "-") b && prefixb ($" ") s)).
  destruct (Ascii.eqb_spec (ch "-") b) as [<-|N]; [exfalso; apply H; right; left; auto|]. destruct (Ascii.eqb _ a); reflexivity.
Qed.
Lemma no_dash_split s cur : ~ In (ch "-") s -> split_sub_aux ($" - ") 0 cur s = [rev cur ++ s].
Proof.
  revert cur. induction s as [|c s IH]; intros cur H; cbn [split_sub_aux]; [rewrite app_nil_r; reflexivity|].
  rewrite prefixb_dash by auto. rewrite IH by (intros X; apply H; right; auto). cbn [rev]. rewrite <- app_assoc. reflexivity.
Qed.
Lemma get_conds_In l c : In c (get_conds l) -> exists r, In r l /\ In c (conds r).
Proof.
  unfold get_conds. assert (H : forall acc, In c (fold_left (fun acc r => acc ++ filter (fun c => negb (existsb (fun d => cond_eqb d c) acc)) (conds r)) l acc) -> In c acc \/ exists r, In r l /\ In c (conds r)).
  { induction l as [|r l IH]; intros acc I; cbn [fold_left] in I; auto. destruct (IH _ I) as [J|(r' & J1 & J2)].
    - apply in_app_or in J. destruct J as [J|J]; auto. apply filter_In in J. right. exists r. split; [left; auto|apply J].
    - right. exists r'. split; [right; auto|auto]. }
  intros I. destruct (H [] I) as [[]|K]; exact K.
Qed.
Definition plain_value (v : pyval) : Prop := exists s, v = PStr s /\ ~ In (ch "-") s.
Lemma plain_ranges l : (forall r c, In r l -> In c (conds r) -> plain_value (cval c)) -> construct_from_ruleset l = Ok tt.
Proof.
  intros H. unfold construct_from_ruleset.
  assert (M : forall k, (forall c, In c k -> plain_value (cval c)) -> mapM range_of k = Ok (map (fun _ => None) k)).
  { induction k as [|c k IH]; intros P; [reflexivity|]. destruct (P c (or_introl eq_refl)) as (s & Es & Nd). cbn [mapM map]. unfold range_of at 1. rewrite Es.
    unfold find_floor_ceil, split_sub. rewrite no_dash_split by auto. cbn [rev app]. rewrite no_dash_positions by auto. cbn [bind]. rewrite IH; [reflexivity|]. intros; apply P; right; auto. }
  rewrite M; [|intros c I; destruct (get_conds_In _ _ I) as (r & I1 & I2); eauto]. cbn [bind].
  assert (K : forall k : list cond, exists u, mapM range_key (map (fun _ => None) k) = Ok u).
  { induction k as [|c k (u & E)]; [eexists; reflexivity|]. exists (tt :: u). cbn [map mapM range_key bind]. rewrite E. reflexivity. }
  destruct (K (get_conds l)) as (u & ->). reflexivity.
Qed.

Lemma selected_mentioned l f : In f (selected_features l) -> mentions l f.
Proof.
  unfold selected_features. intros I. apply dedup_by_In in I. apply in_flat_map in I. destruct I as (r & I & J). apply in_map_iff in J. destruct J as (c & <- & J). exists r, c. auto.
Qed.
Lemma init_suits cl m cf pc x cl1 X names fr : frommodel m = Ok x -> init_ruleset cl m cf pc = (cl1, Ok tt) ->
  prediction_input X names cf fr -> good_frame fr -> frows fr <> [] -> distinct_labels fr -> (forall f, mentions (rs_rules x) f -> usable fr cf f) ->
  ready cl1 x cf pc (selected_features (rs_rules x)) /\ c_bt cl1 = c_bt cl /\ suits cl1 x cf (selected_features (rs_rules x)) bt_empty X names fr.
Proof.
  intros M I PI G NE DL US. unfold init_ruleset in I. rewrite M in I. injection I as <-. split; [constructor; try reflexivity; discriminate|]. split; [reflexivity|].
  constructor; auto.
  - left. reflexivity.
  - intros f b B. exfalso. eapply no_bins; eauto.
  - intros f J. apply US, selected_mentioned, J.
Qed.

(** C58, partial: a new classifier initialised with any model whose condition values are text without a dash predicts, exactly, on data that has
    the features *)
Theorem C58_init_predict_partial : forall cl m cf pc x cl1 X names fr,
  c_bt cl = None -> model_means m x -> init_ruleset cl m cf pc = (cl1, Ok tt) ->
  (forall r c, In r (rs_rules x) -> In c (conds r) -> plain_value (cval c)) ->
  prediction_input X names cf fr -> good_frame fr -> frows fr <> [] -> distinct_labels fr -> (forall f, mentions (rs_rules x) f -> usable fr cf f) ->
  exists cl2 preds, clf_predict cl1 X names = (cl2, Ok preds) /\ rules_of cl2 = Some (map conds (rs_rules x)) /\
    Forall2 (fun rw p => p = true <-> sat_ruleset (fcols fr) rw (rs_rules x)) (frows fr) preds.
Proof.
  intros cl m cf pc x cl1 X names fr B M I PL PI G NE DL US. apply means_from in M. destruct (init_suits _ _ _ _ _ _ _ _ _ M I PI G NE DL US) as (R & B1 & S). rewrite B in B1.
  destruct (prediction_frame_views (set_bt cl1 bt_empty) x cf pc (selected_features (rs_rules x)) bt_empty X names fr) as (df & E & V).
  { destruct R. constructor; auto. }
  { destruct S. constructor; auto. }
  destruct (views_predict _ _ _ _ _ _ _ _ _ S V) as (preds & EP & F). exists (set_bt cl1 bt_empty), preds. split; [|split].
  - unfold clf_predict, ensure_bt. rewrite (rd_rs _ _ _ _ _ R), B1, plain_ranges by auto. cbn [bind]. rewrite E. cbn [bind]. rewrite EP. reflexivity.
  - unfold rules_of. cbn [c_rs set_bt]. rewrite (rd_rs _ _ _ _ _ R). reflexivity.
  - eapply Forall2_imp; [|exact F]. intros rw p H. rewrite <- some_holds_raw. exact H.
Qed.
Print Assumptions C58_init_predict_partial.
(** In general the first predict may raise, see below; but it leaves an (empty) bin transformer behind, so every later one works. *)
Theorem C58_second_predict : forall cl m cf pc x cl1 X1 names1 cl2 o X names fr,
  c_bt cl = None -> model_means m x -> init_ruleset cl m cf pc = (cl1, Ok tt) -> clf_predict cl1 X1 names1 = (cl2, o) ->
  prediction_input X names cf fr -> good_frame fr -> frows fr <> [] -> distinct_labels fr -> (forall f, mentions (rs_rules x) f -> usable fr cf f) ->
  exists preds, clf_predict cl2 X names = (cl2, Ok preds) /\
    Forall2 (fun rw p => p = true <-> sat_ruleset (fcols fr) rw (rs_rules x)) (frows fr) preds.
Proof.
  intros cl m cf pc x cl1 X1 names1 cl2 o X names fr B M I P1 PI G NE DL US. apply means_from in M. destruct (init_suits _ _ _ _ _ _ _ _ _ M I PI G NE DL US) as (R & B1 & S). rewrite B in B1.
  unfold clf_predict, ensure_bt in P1. rewrite (rd_rs _ _ _ _ _ R), B1 in P1. injection P1 as <- _.
  destruct (C01_classifier_predict (set_bt cl1 bt_empty) x cf pc (selected_features (rs_rules x)) bt_empty X names fr) as (preds & E & F); auto.
  { destruct R. constructor; auto. }
  { destruct S. constructor; auto. }
  exists preds. split; auto. eapply Forall2_imp; [|exact F]. intros rw p H. rewrite <- some_holds_raw. exact H.
Qed.
Print Assumptions C58_second_predict.
(** Refuted: a date (two dashes) raises UnboundLocalError, a number AttributeError, "a - b" ValueError; on data that has the features. *)
Definition dated : frame := mkframe [s_ "day"; s_ "n"] [mkrow 0 [s_ "2020-01-02"; PInt 1]; mkrow 1 [s_ "a - b"; PInt 2]].
Definition init_with (l : list rule) : clf := fst (init_ruleset (construct RIPPER_ []) (MRuleset (Ruleset_ l)) (s_ "t") (PInt 1)).
Theorem C58_init_predict_refuted :
  snd (clf_predict (init_with [Rule_ [c_ "day" "2020-01-02"]]) (DFrame dated) None) = Err UnboundLocalError /\
  snd (clf_predict (init_with [Rule_ [mkcond (s_ "n") (PInt 1)]]) (DFrame dated) None) = Err AttributeError /\
  snd (clf_predict (init_with [Rule_ [c_ "day" "a - b"]]) (DFrame dated) None) = Err ValueError /\
  good_frame dated /\ distinct_labels dated /\ usable dated (s_ "t") (s_ "day") /\ usable dated (s_ "t") (s_ "n") /\
  (* and the same call again works *)
  snd (clf_predict (fst (clf_predict (init_with [Rule_ [c_ "day" "2020-01-02"]]) (DFrame dated) None)) (DFrame dated) None) = Ok [true; false].
Proof.
  split; [vm_compute; reflexivity|]. split; [vm_compute; reflexivity|]. split; [vm_compute; reflexivity|].
  split; [apply good_frameb_ok; reflexivity|]. split; [repeat constructor; cbn; intuition discriminate|].
  split; [split; [apply has_col_iff; reflexivity|reflexivity]|]. split; [split; [apply has_col_iff; reflexivity|reflexivity]|]. vm_compute. reflexivity.
Qed.
Print Assumptions C58_init_predict_refuted.
Example C58_nonvacuous : exists cl1, init_ruleset (construct IREP_ []) (MStr ($"[[u=b] V [v=4 ^ u=a]]")) (s_ "t") (PInt 1) = (cl1, Ok tt) /\
  snd (clf_predict cl1 (DFrame newcomers) None) = Ok [false; true; false].
Proof. eexists. split; [vm_compute; reflexivity|vm_compute; reflexivity]. Qed.

(** ** C60: fidelity *)
(** With the black box's predictions [l], given or computed, the score of the interpreter is the metric applied to (l = pos_class, interpreter's
    predictions), the latter being the DNF of the interpreter's rules; for a list of metrics, each in order. Partial: an array with a single
    prediction computed by the black box is excluded, see the refutation. *)
Definition box_says (X : data) (model : option blackbox) (given : option (list pyval)) (l : list pyval) : Prop :=
  given = Some l \/ (given = None /\ exists m out, model = Some m /\ m X = Ok out /\ box_vals out = l /\ (out = BoxArray l -> length l <> 1)).
Lemma box_fidelity X model given l : box_says X model given l -> fidelity_preds X model given = Ok (inr l).
Proof.
  intros BX. unfold fidelity_preds. destruct BX as [->|(-> & m & out & -> & H & <- & N)]; auto. rewrite H. cbn [bind]. destruct out as [l|l]; cbn [box_vals] in *; auto.
  destruct l as [|a [|b l]]; auto. exfalso. apply N; auto.
Qed.
Theorem C60_score_fidelity_partial : forall cl x cf pc sel bt X fr model given l,
  ready cl x cf pc sel -> c_bt cl = Some bt -> suits cl x cf sel bt X None fr -> box_says X model given l ->
  exists preds, Forall2 (fun rw p => p = true <-> some_holds bt (fcols fr) rw (rs_rules x)) (frows fr) preds /\
    (forall A (metric : list bool -> list bool -> res A), score_fidelity metric X cl model given = (cl, metric (map (fun v => py_eq v pc) l) preds)) /\
    (forall A (metrics : list (list bool -> list bool -> res A)) values, Forall2 (fun m v => m (map (fun v => py_eq v pc) l) preds = Ok v) metrics values ->
       score_fidelity_list metrics X cl model given = (cl, Ok values)).
Proof.
  intros cl x cf pc sel bt X fr model given l R B S BX. destruct (C01_classifier_predict _ _ _ _ _ _ _ _ _ R B S) as (preds & E & F). exists preds. split; auto.
  assert (FP := box_fidelity _ _ _ _ BX).
  assert (SC : forall A (metric : list bool -> list bool -> res A), clf_score metric cl X (YList l) = (cl, metric (map (fun v => py_eq v pc) l) preds)).
  { intros A metric. unfold clf_score. rewrite E. cbn [bind y_vals]. rewrite (rd_pc _ _ _ _ _ R). reflexivity. }
  split; intros A; [intros metric; unfold score_fidelity; rewrite FP; apply SC|].
  intros metrics values H. unfold score_fidelity_list. rewrite FP. induction H as [|m v ms vs H1 H2 IH]; cbn [score_each score_preds]; [reflexivity|]. rewrite SC, H1, IH. reflexivity.
Qed.
Print Assumptions C60_score_fidelity_partial.
Theorem C60_neither : forall A (metric : list bool -> list bool -> res A) metrics X cl,
  score_fidelity metric X cl None None = (cl, Err ValueError) /\ score_fidelity_list (A := A) metrics X cl None None = (cl, Err ValueError).
Proof. intros. split; reflexivity. Qed.
Print Assumptions C60_neither.
(** the default metric: the fraction of rows on which the interpreter and the black box agree *)
Theorem C60_accuracy_partial : forall cl x cf pc sel bt X fr model given l,
  ready cl x cf pc sel -> c_bt cl = Some bt -> suits cl x cf sel bt X None fr -> box_says X model given l -> length l = length (frows fr) ->
  exists q agree, score_fidelity score_accuracy X cl model given = (cl, Ok (Some q)) /\
    picks (fun ry => some_holds bt (fcols fr) (fst ry) (rs_rules x) <-> py_eq (snd ry) pc = true) (combine (frows fr) l) agree /\
    (q == qn (length agree) / qn (length (frows fr)))%Q.
Proof.
  intros cl x cf pc sel bt X fr model given l R B S BX L. destruct (C46_score cl x cf pc sel bt X fr (YList l) R B S L) as (q & agree & E & K & V). exists q, agree. split; auto.
  destruct (C60_score_fidelity_partial _ _ _ _ _ _ _ _ _ _ _ R B S BX) as (preds & _ & H & _). rewrite H. destruct (C60_score_fidelity_partial _ _ _ _ _ _ _ _ None (Some l) l R B S (or_introl eq_refl)) as (preds2 & _ & H2 & _).
  assert (X1 := H2 _ score_accuracy). unfold score_fidelity in X1. cbn [fidelity_preds score_preds] in X1. rewrite E in X1.
  assert (Y1 := H _ (fun a b => Ok (a, b))). assert (Y2 := H2 _ (fun a b => Ok (a, b))). unfold score_fidelity in Y1, Y2. cbn [fidelity_preds score_preds] in Y2.
  assert (FP := box_fidelity _ _ _ _ BX). rewrite FP in Y1. cbn [score_preds] in Y1. rewrite Y1 in Y2. injection Y2 as ->. rewrite X1. reflexivity.
Qed.
Print Assumptions C60_accuracy_partial.
(** REFUTED for one row: try_np_tonum turns the black box's one-element array into a number, which score cannot iterate over: TypeError, though
    the same prediction given as a list or as model_preds is scored. *)
Definition one_row : frame := mkframe [s_ "u"; s_ "v"] [mkrow 0 [s_ "a"; PInt 100]].
Theorem C60_one_row_refuted :
  snd (score_fidelity score_accuracy (DFrame one_row) people_clf (Some (fun _ => Ok (BoxArray [PInt 1]))) None) = Err TypeError /\
  snd (score_fidelity score_accuracy (DFrame one_row) people_clf (Some (fun _ => Ok (BoxList [PInt 1]))) None) = Ok (Some 1%Q) /\
  snd (score_fidelity score_accuracy (DFrame one_row) people_clf None (Some [PInt 1])) = Ok (Some 1%Q).
Proof. split; [|split]; vm_compute; reflexivity. Qed.
Print Assumptions C60_one_row_refuted.
Example C60_nonvacuous : exists preds,
  Forall2 (fun rw p => p = true <-> some_holds people_bt (fcols newcomers) rw (rs_rules people_rules)) (frows newcomers) preds /\
  score_fidelity_list [score_accuracy; score_recall] (DFrame newcomers) people_clf (Some (fun _ => Ok (BoxArray [PInt 1; PInt 0; PInt 0]))) None =
    (people_clf, Ok [Some (2#3); Some 1%Q]).
Proof.
  destruct (C60_score_fidelity_partial people_clf people_rules (s_ "t") (PInt 1) [s_ "v"] people_bt (DFrame newcomers) newcomers (Some (fun _ => Ok (BoxArray [PInt 1; PInt 0; PInt 0]))) None [PInt 1; PInt 0; PInt 0]
    people_ready eq_refl people_suits) as (preds & F & _); [right; split; auto; do 2 eexists; do 3 (split; [reflexivity|]); discriminate|]. exists preds. split; [exact F|vm_compute; reflexivity].
Qed.
