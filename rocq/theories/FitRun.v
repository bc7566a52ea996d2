(** * FitRun.v : a whole call of fit (C25, C26, C29-C32, C34) *)
From Verif Require Export ClassFacts RipperTrain ProbaFacts IrepTrain RuleFacts RipperStages RipperSpec.
Open Scope nat_scope.

(** the learner selected by the class *)
Definition train (a : alg) := match a with IREP_ => irep_train | RIPPER_ => ripper_train end.
Definition hyper_of (cl : clf) (kw : list (param * pvalue)) : hyper := c_hyper (set_fit_params cl kw).
Lemma set_fit_alg cl kw : c_alg (set_fit_params cl kw) = c_alg cl. Proof. reflexivity. Qed.

(** recalibration on the training frame *)
Lemma recal_train cl df x f p : c_cf cl = Some f -> c_pc cl = Some p -> c_rs cl = Some x -> frows df <> [] -> has_col df f = true ->
  clf_recalibrate cl (DFrame df) None None (Some 1%Z) false false =
  (let '(x', o) := recalibrate_run (Some 1%Z) false (h_alpha (c_hyper cl)) x df f p in (set_rs cl x', o)).
Proof.
  intros F P R NE HC. unfold clf_recalibrate. rewrite F, P. cbn [bind]. unfold preprocess_recalibrate, check_input. cbn [data_len known_names].
  destruct (Nat.eqb_spec (length (frows df)) 0) as [Z|Z]; [destruct (frows df); [congruence|discriminate]|]. cbn [negb]. unfold has_col in HC. rewrite HC.
  cbn [bind]. unfold training_df. cbn [rename to_df bind]. rewrite R. reflexivity.
Qed.
Lemma recalibrate_run_ok ms rm alpha x df f p x' : recalibrate alpha x df f p = Ok x' -> recalibrate_run ms rm alpha x df f p = (x', Ok tt).
Proof. intros H. unfold recalibrate_run. rewrite recalibrate_min_eq, H. unfold recalibrate in H. binv H. rewrite E. reflexivity. Qed.
Lemma recalibrate_run_inv ms rm alpha x df f p x' : recalibrate_run ms rm alpha x df f p = (x', Ok tt) -> recalibrate alpha x df f p = Ok x'.
Proof. unfold recalibrate_run. rewrite recalibrate_min_eq. destruct (check_features _ _); [|discriminate]. destruct (recalibrate _ _ _ _ _); [|discriminate]. intros H; injection H as <-; reflexivity. Qed.

(** the ruleset that fit ends with, from the trained one *)
Definition finish (w : world) (a : alg) (h : hyper) (df : frame) (f p : pyval) (x1 : ruleset) : res ruleset :=
  match a with
  | IREP_ => x2 <- recalibrate (h_alpha h) x1 df f p ;; Ok (dedupe_trim (w_env w) h x2)
  | RIPPER_ => recalibrate (h_alpha h) (dedupe_trim (w_env w) h x1) df f p
  end.

Lemma fit_run w cl X y cf pc names init cnopt kw df f p bt x0 xi x1 x2 feats :
  irep_start init = Ok x0 -> fit_pre w cl X y cf pc names kw = Ok (df, f, p, bt) -> frommodel init = Ok xi ->
  train (c_alg cl) (w_env w) (hyper_of cl kw) cnopt df f p xi = Ok x1 -> finish w (c_alg cl) (hyper_of cl kw) df f p x1 = Ok x2 ->
  cols_without df f = Ok feats -> frows df <> [] -> has_col df f = true ->
  exists cl', fit w cl X y cf pc names init cnopt kw = (cl', Ok tt) /\ c_rs cl' = Some x2 /\ c_cf cl' = Some f /\ c_pc cl' = Some p /\ c_bt cl' = Some bt /\
    c_sel cl' = Some (selected_features (rs_rules x1)) /\ c_feats cl' = Some feats /\ c_alg cl' = c_alg cl /\ c_hyper cl' = hyper_of cl kw.
Proof.
  intros S0 P FM T FI CW NE HC. unfold fit_pre, fit_nbins in P. fold (hyper_of cl kw) in P. unfold fit. destruct (c_alg cl) eqn:EA; cbn [train finish] in T, FI.
  - binv FI. rename v into x', E into ER. injection FI as <-.
    eexists. split.
    + rewrite S0. unfold irep_fit. rewrite S0. fold (hyper_of cl kw). rewrite P, FM. cbn [bind]. rewrite T, CW.
      erewrite recal_train; [|reflexivity..|auto|auto]. erewrite recalibrate_run_ok; [|exact ER]. cbn [c_rs set_classes set_rs]. reflexivity.
    + cbn. rewrite EA. repeat split; reflexivity.
  - eexists. split.
    + unfold ripper_fit. fold (hyper_of cl kw). rewrite P, FM. rewrite <- ripper_trace_train in T. destruct (ripper_trace _ _ _ _ _ _ _) as [lf o]. cbn [snd] in T. subst o. rewrite CW.
      erewrite recal_train; [|reflexivity..|auto|auto]. erewrite recalibrate_run_ok; [|exact FI]. reflexivity.
    + cbn. rewrite EA. repeat split; reflexivity.
Qed.

(** and back: what a successful call did *)
Record fitted (w : world) (cl : clf) (X : data) (y : option ydata) (cf pc : option pyval) (names : option (list pyval)) (init : model_arg)
  (cnopt : bool) (kw : list (param * pvalue)) (cl' : clf) (df : frame) (f p : pyval) (bt : bin_transformer) (xi x1 x2 : ruleset) : Prop := mkfitted {
  ft_pre : fit_pre w cl X y cf pc names kw = Ok (df, f, p, bt);
  ft_init : frommodel init = Ok xi;
  ft_train : train (c_alg cl) (w_env w) (hyper_of cl kw) cnopt df f p xi = Ok x1;
  ft_finish : finish w (c_alg cl) (hyper_of cl kw) df f p x1 = Ok x2;
  ft_rs : c_rs cl' = Some x2; ft_cf : c_cf cl' = Some f; ft_pc : c_pc cl' = Some p; ft_bt : c_bt cl' = Some bt;
  ft_sel : c_sel cl' = Some (selected_features (rs_rules x1));
  ft_alg : c_alg cl' = c_alg cl; ft_hyper : c_hyper cl' = hyper_of cl kw; ft_classes : c_classes cl' = Some [PInt 0; PInt 1];
  ft_feats : exists feats, cols_without df f = Ok feats /\ c_feats cl' = Some feats }.

Lemma recal_inv cl df x f p cl5 : c_cf cl = Some f -> c_pc cl = Some p -> c_rs cl = Some x ->
  clf_recalibrate cl (DFrame df) None None (Some 1%Z) false false = (cl5, Ok tt) ->
  exists x', recalibrate (h_alpha (c_hyper cl)) x df f p = Ok x' /\ cl5 = set_rs cl x'.
Proof.
  intros F P R. unfold clf_recalibrate. rewrite F, P. cbn [bind]. destruct (preprocess_recalibrate _ _ _ _ _) as [df'|] eqn:E; [|discriminate].
  assert (df' = df) as ->.
  { unfold preprocess_recalibrate in E. binv E. binv E. unfold training_df in E1. cbn [rename to_df bind] in E1. injection E1 as <-. injection E as <-. reflexivity. }
  rewrite R. destruct (recalibrate_run _ _ _ _ _ _ _) as [x' o] eqn:ER. intros H. injection H as <- ->. apply recalibrate_run_inv in ER. eauto.
Qed.
Lemma fit_fitted w cl X y cf pc names init cnopt kw cl' : fit w cl X y cf pc names init cnopt kw = (cl', Ok tt) ->
  exists df f p bt xi x1 x2, fitted w cl X y cf pc names init cnopt kw cl' df f p bt xi x1 x2.
Proof.
  unfold fit. destruct (c_alg cl) eqn:EA.
  - destruct (irep_start init) as [x0|er] eqn:EI; [|discriminate]. unfold irep_fit. rewrite EI. fold (hyper_of cl kw).
    destruct (preprocess_training _ _ _ _ _ _ _) as [[[[df f] p] bt]|] eqn:EP; [|discriminate].
    destruct (frommodel init) as [xi|] eqn:EF; [|discriminate]. cbn [bind].
    destruct (irep_train _ _ _ _ _ _ _) as [x1|] eqn:ET; [|discriminate]. destruct (cols_without df f) as [feats|] eqn:EC; [|discriminate].
    destruct (clf_recalibrate _ _ _ _ _ _ _) as [cl5 o] eqn:ER. destruct o as [[]|]; [|discriminate].
    eapply recal_inv in ER; [|reflexivity..]. destruct ER as (x2 & E2 & ->). cbn [c_rs set_classes set_rs].
    change (recalibrate (h_alpha (hyper_of cl kw)) x1 df f p = Ok x2) in E2.
    intros H. injection H as <-. exists df, f, p, bt, xi, x1, (dedupe_trim (w_env w) (hyper_of cl kw) x2).
    assert (FI : finish w (c_alg cl) (hyper_of cl kw) df f p x1 = Ok (dedupe_trim (w_env w) (hyper_of cl kw) x2)) by (rewrite EA; cbn [finish]; rewrite E2; reflexivity).
    constructor; auto; try (rewrite EA; auto; fail); cbn; try (rewrite EA; auto; fail); auto; try (unfold finish; rewrite E2; reflexivity); try (exists feats; auto).
  - unfold ripper_fit. fold (hyper_of cl kw).
    destruct (preprocess_training _ _ _ _ _ _ _) as [[[[df f] p] bt]|] eqn:EP; [|discriminate].
    destruct (frommodel init) as [xi|] eqn:EF; [|discriminate].
    pose proof (ripper_trace_train (w_env w) (hyper_of cl kw) cnopt df f p xi) as ET.
    destruct (ripper_trace _ _ _ _ _ _ _) as [lf [x1|]]; [|discriminate]. cbn [snd] in ET. symmetry in ET. destruct (cols_without df f) as [feats|] eqn:EC; [|discriminate].
    destruct (clf_recalibrate _ _ _ _ _ _ _) as [cl5 o] eqn:ER. destruct o as [[]|]; [|discriminate].
    eapply recal_inv in ER; [|reflexivity..]. destruct ER as (x2 & E2 & ->).
    intros H. injection H as <-. exists df, f, p, bt, xi, x1, x2.
    constructor; auto; try (rewrite EA; auto; fail); cbn; try (rewrite EA; auto; fail); auto; try (exists feats; auto).
Qed.

(** ** the conditions of the final ruleset *)
Definition same_conds (a b : rule) : Prop := conds a = conds b.
Lemma map_conds_forall l l' : map conds l = map conds l' <-> Forall2 same_conds l l'.
Proof.
  split.
  - revert l'. induction l as [|a l IH]; intros [|b l'] H; try discriminate; [constructor|]. injection H as H1 H2. constructor; auto.
  - induction 1; cbn; congruence.
Qed.
Lemma in_set_conds H seen seen' r r' : Forall2 same_conds seen seen' -> same_conds r r' -> in_set H seen r = in_set H seen' r'.
Proof.
  intros F E. unfold in_set. induction F as [|a b l l' E' F IH]; [reflexivity|]. cbn [existsb]. rewrite IH. f_equal.
  unfold rule_hash, rule_eqb, cond_strs, same_conds in *. rewrite E, E'. reflexivity.
Qed.
Lemma remove_dups_conds H l l' : Forall2 same_conds l l' -> forall seen seen', Forall2 same_conds seen seen' ->
  Forall2 same_conds (remove_dups_from H seen l) (remove_dups_from H seen' l').
Proof.
  induction 1 as [|a b l l' E F IH]; intros seen seen' S; cbn [remove_dups_from]; [constructor|].
  rewrite (in_set_conds H seen seen' a b S E). destruct (in_set H seen' b); [auto|]. constructor; auto. apply IH. apply Forall2_app; auto.
Qed.
Lemma remove_duplicates_conds H l l' : Forall2 same_conds l l' -> Forall2 same_conds (remove_duplicates H l) (remove_duplicates H l').
Proof. intros F. apply remove_dups_conds; auto. Qed.
Lemma count_conds_same l l' : Forall2 same_conds l l' -> count_conds l = count_conds l'.
Proof. unfold count_conds. induction 1 as [|a b l l' E F IH]; [reflexivity|]. cbn. rewrite E. unfold list_sum in IH. rewrite IH. reflexivity. Qed.
Lemma Forall2_rev {A B} (R : A -> B -> Prop) l l' : Forall2 R l l' -> Forall2 R (rev l) (rev l').
Proof. induction 1; cbn; [constructor|]. apply Forall2_app; auto. Qed.
Lemma trim_rev_conds m l l' : Forall2 same_conds l l' -> Forall2 same_conds (trim_rev m l) (trim_rev m l').
Proof.
  induction 1 as [|a b l l' E F IH]; cbn [trim_rev]; [constructor|]. rewrite (count_conds_same (a :: l) (b :: l')) by (constructor; auto).
  destruct (_ <? _)%Z; auto.
Qed.
Lemma trim_conds_conds m l l' : Forall2 same_conds l l' -> Forall2 same_conds (trim_conds m l) (trim_conds m l').
Proof. intros F. destruct m as [m|]; auto. unfold trim_conds. apply Forall2_rev, trim_rev_conds, Forall2_rev, F. Qed.

(** the rules fit keeps of the trained ones *)
Definition kept (w : world) (h : hyper) (l : list rule) : list rule := trim_conds (h_max_total_conds h) (remove_duplicates (e_hash (w_env w)) l).
Lemma finish_conds w a h df f p x1 x2 : finish w a h df f p x1 = Ok x2 -> Forall2 same_conds (rs_rules x2) (kept w h (rs_rules x1)).
Proof.
  destruct a; cbn [finish]; intros H.
  - binv H. injection H as <-. apply recalibrate_conds in E. apply map_conds_forall in E. unfold dedupe_trim, set_rules. cbn [rs_rules].
    apply trim_conds_conds, remove_duplicates_conds, E.
  - apply recalibrate_conds in H. apply map_conds_forall in H. exact H.
Qed.
Lemma kept_sublist w h l : sublist (kept w h l) l.
Proof.
  destruct (remove_duplicates_facts (e_hash (w_env w)) l) as (S & _). destruct (trim_conds_prefix (h_max_total_conds h) (remove_duplicates (e_hash (w_env w)) l)) as (s & E).
  unfold kept. eapply sublist_trans; [|exact S]. rewrite E at 2. clear. induction (trim_conds _ _); cbn; [|constructor; auto]. induction s; constructor; auto.
Qed.
Lemma kept_In w h l r : In r (kept w h l) -> In r l. Proof. intros I. eapply sublist_In; [apply kept_sublist|exact I]. Qed.
Lemma Forall2_In_l {A B} (R : A -> B -> Prop) l l' a : Forall2 R l l' -> In a l -> exists b, In b l' /\ R a b.
Proof. induction 1 as [|x y l l' E F IH]; intros I; [contradiction|]. destruct I as [<-|I]; [exists y; cbn; auto|]. destruct (IH I) as (b & Hb & Rb). exists b. cbn; auto. Qed.
Lemma finish_In w a h df f p x1 x2 r : finish w a h df f p x1 = Ok x2 -> In r (rs_rules x2) -> exists r1, In r1 (rs_rules x1) /\ conds r = conds r1.
Proof.
  intros H I. apply finish_conds in H. apply (Forall2_In_l _ _ _ _ H) in I. destruct I as (r1 & I1 & E). exists r1. split; [eapply kept_In; eauto|exact E].
Qed.

Lemma present_kept w h df l : features_present df l -> features_present df (kept w h l).
Proof. intros P f (r & c & I & J & E). apply P. exists r, c. split; [eapply kept_In; eauto|auto]. Qed.

(** fit ends well once training does, if the features of the trained rules are columns *)
Lemma finish_total w a h df f p x1 : (0 < h_alpha h)%Q -> good_frame df -> distinct_labels df -> has_col df f = true ->
  features_present df (rs_rules x1) -> exists x2, finish w a h df f p x1 = Ok x2.
Proof.
  intros A G L HC P. assert (C : column_present df f) by (apply has_col_iff; auto). destruct a; cbn [finish].
  - destruct (recalibrate_exact (h_alpha h) x1 df f p A G L P C) as (x2 & -> & _). cbn [bind]. eauto.
  - destruct (recalibrate_exact (h_alpha h) (dedupe_trim (w_env w) h x1) df f p A G L) as (x2 & E & _); auto; [|eauto].
    apply present_kept; auto.
Qed.
Lemma cols_without_ok df f : has_col df f = true -> exists feats, cols_without df f = Ok feats.
Proof.
  intros HC. destruct (col_pos_has df f HC) as (j & E & _). unfold cols_without, drop_col. rewrite E. cbn [bind]. eauto.
Qed.
