(** * Prop_Model.v : C81-C84 -- the model fit returns *)
From Verif Require Import TrainSpec TrainView ClfFacts FitRun Prop_Fit Prop_Classifier Prop_ClfProba Prop_FitModel Prop_Fires Prop_Rules Prop_Train Prop_Irep Prop_Helpers Prop_Call CallSpec PrepFacts TransFacts Prop_Cut Demo ScoreFacts.
From Coq Require Import Lqa.
Open Scope nat_scope.

(** ** C81 *)
Definition earlier_later {A} (l : list A) (a b : A) : Prop := exists u v t, l = u ++ a :: v ++ b :: t.

Lemma kept_no_dups w h l a b : earlier_later (kept w h l) a b -> ~ (rule_hash (e_hash (w_env w)) a = rule_hash (e_hash (w_env w)) b /\ rule_eqb a b = true).
Proof.
  intros (u & v & t & E). unfold kept in E.
  destruct (trim_conds_prefix (h_max_total_conds h) (remove_duplicates (e_hash (w_env w)) l)) as (s & P). rewrite E in P.
  destruct (remove_duplicates_facts (e_hash (w_env w)) l) as (_ & _ & K).
  apply (K (u ++ a :: v) b (t ++ s)); [rewrite P, <- !app_assoc; cbn [app]; rewrite <- app_assoc; reflexivity|].
  apply in_or_app. right. left. reflexivity.
Qed.
Lemma Forall2_earlier {A B} (R : A -> B -> Prop) l k a b : Forall2 R l k -> earlier_later l a b -> exists a' b', R a a' /\ R b b' /\ earlier_later k a' b'.
Proof.
  intros F (u & v & t & ->). apply Forall2_app_inv_l in F. destruct F as (u' & k1 & F1 & F2 & ->). inversion F2 as [|a0 a' l0 k2 Ra F3]; subst.
  apply Forall2_app_inv_l in F3. destruct F3 as (v' & k3 & F4 & F5 & ->). inversion F5 as [|b0 b' l1 t' Rb F6]; subst.
  exists a', b'. split; auto. split; auto. exists u', v', t'. reflexivity.
Qed.
Lemma rule_eqb_conds a b a' b' : conds a = conds a' -> conds b = conds b' -> rule_eqb a b = rule_eqb a' b'.
Proof. intros E1 E2. unfold rule_eqb, cond_strs. rewrite E1, E2. reflexivity. Qed.

(** Whatever initial model is given, the rules fit returns never contain the same rule twice, also not with its conditions in another
    order; two rules the code itself regards as equal can only survive together if one of them repeats a condition. *)
Theorem C81_no_repeated_rules : forall w cl X y cf pc names init cnopt kw cl',
  fit w cl X y cf pc names init cnopt kw = (cl', Ok tt) ->
  exists x, c_rs cl' = Some x /\
    forall a b, earlier_later (rs_rules x) a b ->
      ~ Permutation (conds a) (conds b) /\
      (NoDup (map cond_str (conds a)) -> NoDup (map cond_str (conds b)) -> rule_eqb a b = false).
Proof.
  intros w cl X y cf pc names init cnopt kw cl' H. apply fit_fitted in H. destruct H as (df & f & p & bt & xi & x1 & x2 & FT).
  exists x2. split; [exact (ft_rs _ _ _ _ _ _ _ _ _ _ _ _ _ _ _ _ _ _ FT)|]. intros a b EL.
  destruct (Forall2_earlier _ _ _ _ _ (finish_conds _ _ _ _ _ _ _ _ (ft_finish _ _ _ _ _ _ _ _ _ _ _ _ _ _ _ _ _ _ FT)) EL) as (a' & b' & Ea & Eb & EL').
  assert (K := kept_no_dups _ _ _ _ _ EL'). unfold same_conds in Ea, Eb. split.
  - intros P. apply K. rewrite Ea, Eb in P. split; [apply C09_permuted_rules_hash; auto|].
    apply rule_eqb_perm; auto.
  - intros N1 N2. rewrite (rule_eqb_conds _ _ _ _ Ea Eb). destruct (rule_eqb a' b') eqn:Q; auto. exfalso. apply K. split; auto.
    unfold same_conds in *. apply C09_equal_rules_hash_partial; auto; unfold cond_strs; congruence.
Qed.
Print Assumptions C81_no_repeated_rules.

Lemma strs_nodup df f r : prints_apart df f -> (forall c, In c (conds r) -> from_data df f c) ->
  (forall a c b d t, conds r = a ++ c :: b ++ d :: t -> py_eq (cfeat c) (cfeat d) = false) -> NoDup (map cond_str (conds r)).
Proof.
  intros PA FD S. induction (conds r) as [|c l IH]; cbn [map]; constructor.
  - intros I. apply in_map_iff in I. destruct I as (d & E & I). apply in_split in I. destruct I as (b & t & ->).
    assert (K := S [] c b d t eq_refl). destruct (PA d c) as [K' _]; auto using in_eq. { apply FD. right. apply in_or_app. right. left. reflexivity. }
    rewrite py_eq_sym in K. congruence.
  - apply IH; [intros; apply FD; right; auto|]. intros a c0 b d t ->. apply (S (c :: a) c0 b d t). reflexivity.
Qed.
(** Without an initial model, on data in which different conditions print differently, no two of the rules are even equal as Rule objects. *)
Theorem C81_learned_rules_differ : forall w cl X y cf pc names cnopt kw f vs ix cl' fr bt,
  world_ok w -> training_input X y cf names f vs ix -> NoDup ix ->
  let h := hyper_of cl kw in
  (0 <= h_prune h)%Q -> (h_prune h <= 1)%Q -> (h_nbins h = None \/ exists n, h_nbins h = Some n /\ (0 <= n)%Z) ->
  fit w cl X y cf pc names MNone cnopt kw = (cl', Ok tt) -> table_of X names fr -> c_bt cl' = Some bt -> text_tells bt f fr ->
  exists x, c_rs cl' = Some x /\ forall a b, earlier_later (rs_rules x) a b -> rule_eqb a b = false.
Proof.
  intros w cl X y cf pc names cnopt kw f vs ix cl' fr bt WO T ND h P0 P1 NB H TB BT TT.
  destruct (C81_no_repeated_rules _ _ _ _ _ _ _ _ _ _ _ H) as (x & RS & K). exists x. split; auto. intros a b EL.
  destruct (fit_trained _ _ _ _ _ _ _ _ _ _ _ _ _ _ WO T ND P0 P1 NB H) as (df & df0 & p & bt' & xi & x1 & x2 & xx & pp & nn & p' & n' & FT & G & L & HC & TD & TR & ST).
  assert (EX := ft_init _ _ _ _ _ _ _ _ _ _ _ _ _ _ _ _ _ _ FT). cbn in EX. injection EX as <-.
  assert (bt' = bt) by (assert (FB := ft_bt _ _ _ _ _ _ _ _ _ _ _ _ _ _ _ _ _ _ FT); congruence). subst bt'.
  assert (x2 = x) by (assert (FB := ft_rs _ _ _ _ _ _ _ _ _ _ _ _ _ _ _ _ _ _ FT); congruence). subst x2.
  destruct (train_view _ _ _ _ _ _ _ _ _ _ _ _ _ _ _ _ WO (nbins_fine_ok _ NB) T ND TB (ft_pre _ _ _ _ _ _ _ _ _ _ _ _ _ _ _ _ _ _ FT)) as (GF & NE & SB & BF).
  assert (NDS : forall r, In r (rs_rules x) -> NoDup (map cond_str (conds r))).
  { intros r I. apply (strs_nodup df f); [eapply text_prints; eauto| |apply (C73_features_once _ _ _ _ _ _ _ _ _ _ _ _ _ _ _ WO T ND P0 P1 NB H RS I)].
    intros c J. destruct (finish_In _ _ _ _ _ _ _ _ _ (ft_finish _ _ _ _ _ _ _ _ _ _ _ _ _ _ _ _ _ _ FT) I) as (r1 & I1 & EC). rewrite EC in J.
    eapply train_from_data; [exact ST|exact (ft_train _ _ _ _ _ _ _ _ _ _ _ _ _ _ _ _ _ _ FT)|exact I1|exact J]. }
  apply (proj2 (K a b EL)); apply NDS; destruct EL as (u & v & t & ->); apply in_or_app; right; [left; reflexivity|right; apply in_or_app; right; left; reflexivity].
Qed.
Print Assumptions C81_learned_rules_differ.

(** ** C82 *)
(** the row has no value for feature [g] *)
Definition missing_at (fr : frame) (rw : row) (g : pyval) : Prop := value_at (fcols fr) rw g PNaN.
Lemma shown_missing bt g w : shown bt g PNaN w -> w = PNaN.
Proof. intros [((s & E) & _)|[[_ E]|(_ & ivs & _ & _ & B)]]; [discriminate|auto|exact B]. Qed.
Lemma missing_fails bt fr rw g r c : good_frame fr -> missing_at fr rw g -> In c (conds r) -> py_eq (cfeat c) g = true -> ~ holds bt (fcols fr) rw r.
Proof.
  intros [_ D] (j & k & N1 & E & N2) I Q H. destruct (H c I) as (w & (v & V & S) & Ew).
  assert (V' : value_at (fcols fr) rw (cfeat c) PNaN). { exists j, k. split; auto. split; auto. eapply py_eq_trans; [exact E|]. rewrite py_eq_sym. exact Q. }
  rewrite value_at_cell in V, V' by auto. assert (v = PNaN) by congruence. subst v. apply shown_missing in S. subst w. rewrite py_eq_nan_l in Ew. discriminate.
Qed.
(** Predicting with data in which some values are missing: a rule that tests a missing feature is never a reason for the row, so a row
    that misses a feature of every rule is predicted negative and gets the probability of the rows no rule covers. *)
Theorem C82_missing_values : forall cl x cf pc sel bt X names fr,
  ready cl x cf pc sel -> c_bt cl = Some bt -> suits cl x cf sel bt X names fr ->
  exists preds reasons, clf_predict cl X names = (cl, Ok preds) /\ clf_predict_reasons cl X names = (cl, Ok (preds, reasons)) /\
    forall i rw, nth_error (frows fr) i = Some rw ->
      (forall g rr r c, missing_at fr rw g -> nth_error reasons i = Some rr -> In r rr -> In c (conds r) -> py_eq (cfeat c) g = false) /\
      ((forall r, In r (rs_rules x) -> exists c, In c (conds r) /\ missing_at fr rw (cfeat c)) ->
         nth_error preds i = Some false /\ nth_error reasons i = Some [] /\
         (calibrated x -> exists probas why unc q, clf_predict_proba cl X names = (set_classes cl [PStr (lit "not " ++ py_str pc); pc], Ok (probas, why)) /\
            rs_uncov x = Some unc /\ nth_error probas i = Some q /\ eq_pair q (st_smooth unc))).
Proof.
  intros cl x cf pc sel bt X names fr R B S.
  destruct (C03_classifier_reasons _ _ _ _ _ _ _ _ _ R B S) as (preds & reasons & ER & EP & FR).
  destruct (C01_classifier_predict _ _ _ _ _ _ _ _ _ R B S) as (preds' & EP' & FP). rewrite EP in EP'. injection EP' as <-.
  exists preds, reasons. split; auto. split; auto. intros i rw N. assert (G := su_good _ _ _ _ _ _ _ _ S).
  destruct (Forall2_nth _ _ _ _ _ FP N) as (q & Nq & Q). destruct (Forall2_nth _ _ _ _ _ FR N) as (rr & Nr & PK). split.
  - intros g rr' r c M E I J. assert (rr' = rr) by congruence. subst rr'. destruct (py_eq (cfeat c) g) eqn:K; auto. exfalso.
    apply (picks_In _ _ _ _ PK) in I. destruct I as [_ I]. eapply missing_fails; eauto.
  - intros MR. assert (NH : ~ some_holds bt (fcols fr) rw (rs_rules x)).
    { intros (r & I & H). destruct (MR r I) as (c & J & M). pose proof M as (j & k & N1 & E & N2). refine (missing_fails bt fr rw (cfeat c) r c G M J _ H). apply (py_eq_refl_r _ _ E). }
    split; [rewrite Nq; destruct q; auto; exfalso; apply NH, Q; auto|]. split.
    + rewrite Nr. f_equal. apply (picks_nil_iff _ _ _ PK). intros r I H. apply NH. exists r. auto.
    + intros C. destruct (C40_classifier_proba _ _ _ _ _ _ _ _ _ R B S C) as (probas & why & unc & E1 & E2 & _ & _ & FQ).
      destruct (Forall2_nth _ _ _ _ _ FQ N) as (pr & Np & [K _]). exists probas, why, unc, pr. auto.
Qed.
Print Assumptions C82_missing_values.
(** ... and no learned rule tests for a missing value *)
Theorem C82_never_learned : forall w cl X y cf pc names cnopt kw f vs ix cl' x r c,
  world_ok w -> training_input X y cf names f vs ix -> NoDup ix ->
  let h := hyper_of cl kw in
  (0 <= h_prune h)%Q -> (h_prune h <= 1)%Q -> (h_nbins h = None \/ exists n, h_nbins h = Some n /\ (0 <= n)%Z) ->
  fit w cl X y cf pc names MNone cnopt kw = (cl', Ok tt) -> c_rs cl' = Some x -> In r (rs_rules x) -> In c (conds r) -> cval c <> PNaN.
Proof. intros w cl X y cf pc names cnopt kw f vs ix cl' x r c WO T ND h P0 P1 NB H RS I. apply (C73_features_once _ _ _ _ _ _ _ _ _ _ _ _ _ _ _ WO T ND P0 P1 NB H RS I). Qed.
Print Assumptions C82_never_learned.

(** ** C83 *)
Lemma first_occurrences_In {A} (E : A -> A -> Prop) seen l l' : first_occurrences E seen l l' -> forall a, In a l' -> In a l.
Proof. induction 1; intros b I; [destruct I|destruct I as [<-|I]; [left|right]; auto|right; auto]. Qed.
Lemma first_occurrences_complete {A} (E : A -> A -> Prop) seen l l' : (forall a, E a a) -> (forall a b c, E a b -> E b c -> E a c) -> first_occurrences E seen l l' ->
  forall a, In a l -> exists b, (In b seen \/ In b l') /\ E b a.
Proof.
  intros RF TR. induction 1 as [|seen a l l' N F IH|seen a l l' (z & Iz & Ez) F IH]; intros b I; [destruct I| |].
  - destruct I as [<-|I]; [exists a; split; [right; left|]; auto|]. destruct (IH b I) as (c & K & Ec). destruct K as [K|K]; [apply in_app_or in K; destruct K as [K|[<-|[]]]|].
    + exists c. auto. + exists a. split; [right; left|]; auto. + exists c. split; [right; right|]; auto.
  - destruct I as [<-|I]; [exists z; auto|]. destruct (IH b I) as (c & K & Ec). destruct K as [K|K]; [apply in_app_or in K; destruct K as [K|[<-|[]]]|].
    + exists c. auto. + exists z. split; auto. eapply TR; eauto. + exists c. auto.
Qed.
Lemma dup_refl w a : duplicate_of w a a. Proof. split; auto using rule_eqb_refl. Qed.
Lemma dup_trans w a b c : duplicate_of w a b -> duplicate_of w b c -> duplicate_of w a c.
Proof. intros [A1 A2] [B1 B2]. split; [congruence|eapply rule_eqb_trans; eauto]. Qed.
Lemma sees_feat bt cols rw f g w : py_eq f g = true -> sees bt cols rw f w -> sees bt cols rw g w.
Proof.
  intros E (v & (j & c & N1 & E1 & N2) & S). exists v. split.
  - exists j, c. split; auto. split; auto. eapply py_eq_trans; eauto.
  - assert (K : forall b, bins_for bt f b <-> bins_for bt g b).
    { intros b. split; intros (bins & k & B1 & B2 & B3); exists bins, k; split; auto; split; auto; eapply py_eq_trans; eauto; rewrite py_eq_sym; auto. }
    destruct S as [S|[[S1 S2]|(S1 & ivs & S2 & S3)]]; [left; auto|right; left|right; right].
    + split; auto. intros b Hb. apply (S1 b). apply K; auto.
    + split; auto. exists ivs. split; auto. apply K; auto.
Qed.
Lemma twins_hold bt cols rw r r' : rule_eqb r r' = true -> str_faithful (conds r) (conds r') -> holds bt cols rw r' -> holds bt cols rw r.
Proof.
  intros E F H c I. destruct (equal_rules_twins _ _ E F) as [K _]. destruct (K c I) as (d & J & E1 & E2). destruct (H d J) as (w & S & Ew).
  exists w. split; [eapply sees_feat; [rewrite py_eq_sym; exact E1|exact S]|]. eapply py_eq_trans; [exact Ew|]. rewrite py_eq_sym. exact E2.
Qed.
(** Training an IREP on from an initial model never takes anything away: every row for which a rule of the initial model holds -- numbers
    being read through the bins of the new training data -- is predicted positive afterwards. *)
Theorem C83_warm_start : forall w cl X y cf pc names init xi cnopt kw f vs ix cl' x p sel bt X2 names2 fr2,
  c_alg cl = IREP_ -> world_ok w -> training_input X y cf names f vs ix -> NoDup ix -> model_means init xi ->
  let h := hyper_of cl kw in
  (0 <= h_prune h)%Q -> (h_prune h <= 1)%Q -> (h_nbins h = None \/ exists n, h_nbins h = Some n /\ (0 <= n)%Z) -> h_max_total_conds h = None ->
  str_faithful (all_conds (rs_rules xi)) (all_conds (rs_rules xi)) ->
  fit w cl X y cf pc names init cnopt kw = (cl', Ok tt) ->
  ready cl' x f p sel -> c_bt cl' = Some bt -> suits cl' x f sel bt X2 names2 fr2 ->
  exists preds, clf_predict cl' X2 names2 = (cl', Ok preds) /\
    forall i rw, nth_error (frows fr2) i = Some rw -> some_holds bt (fcols fr2) rw (rs_rules xi) -> nth_error preds i = Some true.
Proof.
  intros w cl X y cf pc names init xi cnopt kw f vs ix cl' x p sel bt X2 names2 fr2 EA WO T ND FM h P0 P1 NB MT SF H R B S.
  destruct (C29_irep_fit_keeps_initial _ _ _ _ _ _ _ _ _ _ _ _ _ _ _ _ EA WO T ND FM P0 P1 NB H (rd_rs _ _ _ _ _ R)) as (old & new & FO & _ & K). specialize (K MT).
  destruct (C01_classifier_predict _ _ _ _ _ _ _ _ _ R B S) as (preds & EP & FP). exists preds. split; auto.
  intros i rw N (r & I & HR). destruct (Forall2_nth _ _ _ _ _ FP N) as (q & Nq & Q). rewrite Nq. f_equal. apply Q.
  destruct (first_occurrences_complete _ _ _ _ (dup_refl w) (dup_trans w) FO r I) as (b & J & [_ E]). destruct J as [ [] | J ].
  assert (HB : holds bt (fcols fr2) rw b).
  { eapply twins_hold; [exact E| |exact HR]. intros c d C D. apply SF; unfold all_conds; apply in_flat_map; [exists b|exists r]; split; auto. eapply first_occurrences_In; eauto. }
  assert (JC : In (conds b) (map conds (rs_rules x))) by (rewrite K; apply in_map, in_or_app; auto). apply in_map_iff in JC. destruct JC as (b' & EC & I').
  exists b'. split; auto. unfold holds in *. rewrite EC. exact HB.
Qed.
Print Assumptions C83_warm_start.

(** ** C84 *)
Lemma transform_fcols bt fr fr' : sound_bt bt -> wf_frame fr -> transform bt fr = Ok fr' -> fcols fr' = fcols fr.
Proof.
  intros [N|(bins & B & D & _)] W H; [unfold transform in H; rewrite N in H; discriminate|].
  apply (transform_spec _ _ _ _ B D W H).
Qed.
Lemma dedup_py_distinct l : (forall a, In a l -> py_eq a a = true) -> forall seen a b, earlier_later (dedup_by py_eq seen l) a b -> py_eq a b = false.
Proof.
  induction l as [|x l IH]; intros R seen a b EL; cbn [dedup_by] in EL.
  - destruct EL as (u & v & t & E). destruct u; discriminate.
  - destruct (existsb _ _) eqn:X; [eapply IH; eauto; intros; apply R; right; auto|].
    destruct EL as (u & v & t & E). destruct u as [|z u]; cbn [app] in E; injection E as E1 E2.
    + subst a. assert (I : In b (dedup_by py_eq (seen ++ [x]) l)) by (rewrite E2; apply in_or_app; right; left; reflexivity).
      destruct (py_eq x b) eqn:K; auto. exfalso. revert I K. clear. intros I K.
      assert (NI : forall l seen c, In c (dedup_by py_eq seen l) -> existsb (fun b => py_eq b c) seen = false).
      { clear. induction l as [|y l IH]; intros seen c I; [destruct I|]. cbn [dedup_by] in I. destruct (existsb _ seen) eqn:X; [eauto|]. destruct I as [<-|I]; auto. apply IH in I. rewrite existsb_app in I. apply Bool.orb_false_iff in I. tauto. }
      apply NI in I. rewrite existsb_app in I. cbn [existsb] in I. rewrite K, Bool.orb_true_r in I. discriminate.
    + apply (IH (fun a I => R a (or_intror I)) (seen ++ [x])). exists u, v, t. exact E2.
Qed.
Lemma raw_good X y cf names f vs ix fr df : training_input X y cf names f vs ix -> table_of X names fr -> training_df X y f names = Ok df -> good_frame df.
Proof.
  intros T TB TD. destruct T as [fr' EY ECF T G NE CP CV EIX|y' fr' EY NC FF T G NE S EV L EIX]; assert (fr' = fr) by (eapply table_fun; eauto); subst fr' y ix.
  - unfold training_df in TD. rewrite (table_rename _ _ _ TB) in TD. cbn [bind] in TD. injection TD as <-. auto.
  - subst vs. destruct (training_df_spec X names fr y' f TB G S L FF) as (df' & E & G' & _). rewrite TD in E. injection E as <-. auto.
Qed.
Lemma Forall2_nth_r {A B} (R : A -> B -> Prop) l k i b : Forall2 R l k -> nth_error k i = Some b -> exists a, nth_error l i = Some a /\ R a b.
Proof. intros F. revert i. induction F; intros [|i] N; try discriminate; cbn in *; eauto. injection N as <-. eauto. Qed.
(** After fit, trainset_features_ lists the columns of the training data other than the class, in their order; selected_features_ lists
    some of them, each once, among them every feature a rule of the model tests. Without max_total_conds (and if different conditions
    print differently) it lists nothing else. *)
Theorem C84_feature_lists : forall w cl X y cf pc names cnopt kw f vs ix cl' fr,
  world_ok w -> training_input X y cf names f vs ix -> NoDup ix ->
  let h := hyper_of cl kw in
  (0 <= h_prune h)%Q -> (h_prune h <= 1)%Q -> (h_nbins h = None \/ exists n, h_nbins h = Some n /\ (0 <= n)%Z) ->
  fit w cl X y cf pc names MNone cnopt kw = (cl', Ok tt) -> table_of X names fr ->
  exists x sel bt, c_rs cl' = Some x /\ c_bt cl' = Some bt /\ c_feats cl' = Some (feature_columns f fr) /\ c_sel cl' = Some sel /\
    (forall g, In g sel -> In g (feature_columns f fr)) /\ (forall a b, earlier_later sel a b -> py_eq a b = false) /\
    (forall r c, In r (rs_rules x) -> In c (conds r) -> In (cfeat c) sel) /\
    (h_max_total_conds h = None -> text_tells bt f fr -> forall g, In g sel -> mentions (rs_rules x) g).
Proof.
  intros w cl X y cf pc names cnopt kw f vs ix cl' fr WO T ND h P0 P1 NB H TB.
  destruct (fit_trained _ _ _ _ _ _ _ _ _ _ _ _ _ _ WO T ND P0 P1 NB H) as (df & df0 & p & bt & xi & x1 & x & xx & pp & nn & p' & n' & FT & G & L & HC & TD & TR & ST).
  assert (EX := ft_init _ _ _ _ _ _ _ _ _ _ _ _ _ _ _ _ _ _ FT). cbn in EX. injection EX as <-.
  assert (FP := ft_pre _ _ _ _ _ _ _ _ _ _ _ _ _ _ _ _ _ _ FT).
  assert (SBT := fit_pre_sound _ _ _ _ _ _ _ _ _ _ _ _ _ _ _ WO (nbins_fine_ok _ NB) T FP).
  destruct (train_view _ _ _ _ _ _ _ _ _ _ _ _ _ _ _ _ WO (nbins_fine_ok _ NB) T ND TB FP) as (GF & NE & SB & BF).
  assert (FD : forall r c, In r (rs_rules x1) -> In c (conds r) -> from_data df f c).
  { intros r c I J. eapply train_from_data; [exact ST|exact (ft_train _ _ _ _ _ _ _ _ _ _ _ _ _ _ _ _ _ _ FT)|exact I|exact J]. }
  assert (RF : forall r c, In r (rs_rules x1) -> In c (conds r) -> py_eq (cfeat c) (cfeat c) = true).
  { intros r c I J. destruct (FD r c I J) as (_ & _ & rw & _ & (j & k & _ & E & _)). apply (py_eq_refl_r _ _ E). }
  destruct FT as [_ _ FTR FF FR FC FPC FB FS FA FH FCl (feats & CW & FFe)].
  assert (EF : feats = feature_columns f fr).
  { assert (TD' := raw_drop _ _ _ _ _ _ _ _ _ T TB TD). assert (W0 := raw_good _ _ _ _ _ _ _ _ _ T TB TD). assert (EC := transform_fcols _ _ _ SBT (proj1 W0) TR).
    unfold cols_without in CW. binv CW. injection CW as <-. unfold drop_col in E, TD'. rewrite EC in E. destruct (col_pos (fcols df0) f) as [j|]; [|discriminate].
    injection E as <-. injection TD' as TD1 TD2. cbn [fcols]. exact TD1. }
  subst feats. exists x, (selected_features (rs_rules x1)), bt.
  assert (FC' : forall r c, In r (rs_rules x1) -> In c (conds r) -> In (cfeat c) (feature_columns f fr)).
  { intros r c I J. destruct (FD r c I J) as (K & N & _). unfold feature_columns. apply filter_In. split; [|rewrite N; reflexivity].
    destruct (sb_names _ _ _ _ _ SB _ K) as [Q|Q]; auto. congruence. }
  assert (FX : forall r, In r (rs_rules x) -> exists r1, In r1 (rs_rules x1) /\ conds r = conds r1).
  { intros r I. destruct (finish_In _ _ _ _ _ _ _ _ _ FF I) as (r1 & I1 & EC). eauto. }
  do 4 (split; [assumption|]). split; [|split; [|split]].
  - intros g I. apply selected_mentioned in I. destruct I as (r & c & I & J & ->). eauto.
  - intros a b. apply dedup_py_distinct. intros a0 I. apply in_flat_map in I. destruct I as (r & I & J). apply in_map_iff in J. destruct J as (c & <- & J). eauto.
  - intros r c I J. destruct (FX r I) as (r1 & I1 & EC). rewrite EC in J.
    destruct (selected_In (rs_rules x1) (cfeat c)) as (g & Ig & [->|E]); [exists r1, c; auto|auto|].
    replace (cfeat c) with g; auto. destruct (selected_mentioned _ _ Ig) as (r2 & c2 & I2 & J2 & ->).
    destruct (FD r2 c2 I2 J2) as (K2 & _). destruct (FD r1 c I1 J) as (K1 & _). apply In_nth_error in K1. apply In_nth_error in K2. destruct K1 as (i & K1), K2 as (j & K2).
    assert (j = i) by (eapply (proj2 G); eauto). subst j. congruence.
  - intros MT TT g I. apply selected_mentioned in I. destruct I as (r & c & I & J & ->).
    assert (PA := text_prints _ _ _ _ _ SB TT).
    destruct (remove_duplicates_facts (e_hash (w_env w)) (rs_rules x1)) as (S1 & S2 & _). destruct (S2 r I) as (z & Iz & Ez).
    assert (FCo := finish_conds _ _ _ _ _ _ _ _ FF). unfold kept in FCo. fold h in FCo. rewrite MT in FCo. cbn [trim_conds] in FCo.
    apply In_nth_error in Iz. destruct Iz as (i & Ni). destruct (Forall2_nth_r _ _ _ _ _ FCo Ni) as (z' & Nz' & Ec).
    assert (Iz1 : In z (rs_rules x1)) by (eapply sublist_In; [exact S1|eapply nth_error_In; eauto]).
    apply rule_eqb_iff in Ez. destruct Ez as (_ & _ & INC). assert (IS := INC (cond_str c) (in_map _ _ _ J)). apply in_map_iff in IS. destruct IS as (d & Ed & Id).
    exists z', d. split; [eapply nth_error_In; eauto|]. split; [rewrite Ec; auto|].
    destruct (PA d c (FD _ _ Iz1 Id) (FD _ _ I J) Ed) as [Q _].
    destruct (FD _ _ Iz1 Id) as (K2 & _). destruct (FD _ _ I J) as (K1 & _). apply In_nth_error in K1. apply In_nth_error in K2. destruct K1 as (i1 & K1), K2 as (j & K2).
    assert (j = i1) by (eapply (proj2 G); eauto). subst j. congruence.
Qed.
Print Assumptions C84_feature_lists.

(** ** The hypotheses are met, and what is false without them *)
(** C81 with an initial model that says the same thing twice *)
Definition warm_clf : clf := fst (fit w1 irep_full (DRows people) (Some people_y) None None (Some [s_ "u"; s_ "v"]) (MStr (lit "[[u=c]V[u=a]V[u=a]]")) true []).
Definition warm_rules : ruleset := Eval vm_compute in match c_rs warm_clf with Some x => x | None => Ruleset_ [] end.
Example C81_nonvacuous : snd (fit w1 irep_full (DRows people) (Some people_y) None None (Some [s_ "u"; s_ "v"]) (MStr (lit "[[u=c]V[u=a]V[u=a]]")) true []) = Ok tt /\
  option_map (fun x => map rule_str (rs_rules x)) (c_rs warm_clf) = Some [lit "[u=c]"; lit "[u=a]"; lit "[v=>-1.0]"].
Proof. split; vm_compute; reflexivity. Qed.
(** REFUTED: rules that compare equal (==) but repeat conditions differently hash differently and both survive in a fitted model *)
Definition w3 : world := mkworld (mkenv (shuf env0) (e_split env0) (set_order env0) (fun l => Z.of_nat (length (filter (str_eqb (lit "u=a")) l)))) cut0 (fun n l => firstn n l).
Theorem C81_equal_rules_refuted : exists cl' x a b,
  fit w3 irep_full (DRows people) (Some people_y) None None (Some [s_ "u"; s_ "v"]) (MStr (lit "[[u=a^u=a^u=b]V[u=a^u=b^u=b]]")) true [] = (cl', Ok tt) /\
  c_rs cl' = Some x /\ earlier_later (rs_rules x) a b /\ rule_eqb a b = true.
Proof.
  do 4 eexists. split; [vm_compute; reflexivity|]. split; [vm_compute; reflexivity|]. split; [exists [], []; eexists; cbn [rs_rules app]; reflexivity|vm_compute; reflexivity].
Qed.
Print Assumptions C81_equal_rules_refuted.
Example C81_learned_nonvacuous : exists x, c_rs full_clf = Some x /\ forall a b, earlier_later (rs_rules x) a b -> rule_eqb a b = false.
Proof.
  destruct people_told as (_ & _ & TT).
  refine (C81_learned_rules_differ w1 irep_full (DRows people) (Some people_y) None None (Some [s_ "u"; s_ "v"]) true [] (s_ "t") (y_vals people_y) [10; 11; 12; 13; 14; 15] full_clf people_fr people_bt
    w1_ok people_input people_nodup _ _ _ _ people_fr_table _ TT); [discriminate|discriminate|right; eexists; split; [reflexivity|discriminate]|vm_compute; reflexivity|vm_compute; reflexivity].
Qed.

(** C82: two newcomers, one without a value for the feature the rules test *)
Definition gaps : frame := mkframe [s_ "u"; s_ "v"] [mkrow 0 [s_ "a"; PNaN]; mkrow 1 [PNaN; PInt 100]].
Lemma gaps_suits : suits people_clf people_rules (s_ "t") [s_ "v"] people_bt (DFrame gaps) None gaps.
Proof.
  constructor.
  - apply predict_plain; [auto|apply table_frame].
  - apply good_frameb_ok. reflexivity.
  - discriminate.
  - repeat constructor; cbn; intuition discriminate.
  - exact people_sound.
  - intros f b (bins & g & EB & I & Eg) _ _. left. injection EB as <-. destruct I as [I|[]]. injection I as <- <-.
    intros rw v Ir V. assert (V' : value_at (fcols gaps) rw (s_ "v") v).
    { destruct V as (j & c & N & E & M). exists j, c. split; auto. split; auto. eapply py_eq_trans; [exact E|]. rewrite py_eq_sym. exact Eg. }
    apply value_at_cell in V'; [|destruct (good_frameb_ok gaps eq_refl); auto].
    repeat (destruct Ir as [<-|Ir]; [vm_compute in V'; injection V' as <-; unfold number; eauto|]). destruct Ir.
  - intros f [<-|[]]. split; [apply has_col_iff; reflexivity|reflexivity].
  - intros f (r & c & I & J & ->). destruct I as [<-|[]]. destruct J as [<-|[]]. split; [apply has_col_iff; reflexivity|reflexivity].
Qed.
Example C82_nonvacuous : exists preds, clf_predict people_clf (DFrame gaps) None = (people_clf, Ok preds) /\ nth_error preds 0 = Some false.
Proof.
  destruct (C82_missing_values people_clf people_rules (s_ "t") (PInt 1) [s_ "v"] people_bt (DFrame gaps) None gaps) as (preds & reasons & E & _ & K);
    [exact people_ready|vm_compute; reflexivity|exact gaps_suits|]. exists preds. split; auto. destruct (K 0 (mkrow 0 [s_ "a"; PNaN]) eq_refl) as [_ K2].
  apply K2. intros r [<-|[]]. eexists. split; [left; reflexivity|]. exists 1, (s_ "v"). repeat split; reflexivity.
Qed.
Example C82_value : snd (clf_predict people_clf (DFrame gaps) None) = Ok [false; true].
Proof. vm_compute. reflexivity. Qed.

(** C83 on the people data, started from "[[u=c]V[u=a]V[u=a]]": row 0 is not positive, but the initial model says it is *)
Lemma warm_suits : suits warm_clf warm_rules (s_ "t") [s_ "u"; s_ "v"] people_bt (DFrame people_fr) None people_fr.
Proof.
  constructor.
  - apply predict_plain; [auto|apply table_frame].
  - apply good_frameb_ok. reflexivity.
  - discriminate.
  - repeat constructor; cbn; intuition discriminate.
  - exact people_sound.
  - intros f b (bins & g & EB & I & Eg) _ _. left. injection EB as <-. destruct I as [I|[]]. injection I as <- <-.
    intros rw v Ir V. assert (V' : value_at (fcols people_fr) rw (s_ "v") v).
    { destruct V as (j & c & N & E & M). exists j, c. split; auto. split; auto. eapply py_eq_trans; [exact E|]. rewrite py_eq_sym. exact Eg. }
    apply value_at_cell in V'; [|destruct (good_frameb_ok people_fr eq_refl); auto].
    repeat (destruct Ir as [<-|Ir]; [vm_compute in V'; injection V' as <-; unfold number; eauto|]). destruct Ir.
  - intros f [<-|[<-|[]]]; (split; [apply has_col_iff; reflexivity|reflexivity]).
  - intros f (r & c & I & J & ->). repeat (destruct I as [<-|I]; [destruct J as [<-|[]]; split; [apply has_col_iff; reflexivity|reflexivity]|]). destruct I.
Qed.
Example C83_nonvacuous : exists preds, clf_predict warm_clf (DFrame people_fr) None = (warm_clf, Ok preds) /\ nth_error preds 0 = Some true /\ nth_error (y_vals people_y) 0 = Some (PInt 0).
Proof.
  edestruct (C83_warm_start w1 irep_full (DRows people) (Some people_y) None None (Some [s_ "u"; s_ "v"]) (MStr (lit "[[u=c]V[u=a]V[u=a]]")) (Ruleset_ [Rule_ [c_ "u" "c"]; Rule_ [c_ "u" "a"]; Rule_ [c_ "u" "a"]]) true []
    (s_ "t") (y_vals people_y) [10; 11; 12; 13; 14; 15] warm_clf warm_rules (PInt 1) [s_ "u"; s_ "v"] people_bt (DFrame people_fr) None people_fr eq_refl w1_ok people_input people_nodup) as (preds & E & K);
    [apply means_text; [discriminate|vm_compute; reflexivity]|discriminate|discriminate|right; eexists; split; [reflexivity|discriminate]|reflexivity| |vm_compute; reflexivity| |vm_compute; reflexivity|exact warm_suits|].
  - intros c d C D E. cbn in C, D. repeat (destruct C as [<-|C]; [repeat (destruct D as [<-|D]; [vm_compute in E |- *; split; first [reflexivity|discriminate]|]); destruct D|]). destruct C.
  - constructor; try (vm_compute; reflexivity). vm_compute. discriminate.
  - exists preds. split; auto. split; [|reflexivity]. apply (K 0 _ eq_refl). exists (Rule_ [c_ "u" "a"]). split; [right; left; reflexivity|].
    intros c [<-|[]]. exists (s_ "a"). split; [|reflexivity]. exists (s_ "a"). split; [exists 0, (s_ "u"); repeat split; reflexivity|]. left. split; auto. eexists. reflexivity.
Qed.
(** REFUTED in general. The bins are fitted afresh to the new data, so a rule kept from the initial model may no longer be matched
    (IREP, pandas' cut points); and RIPPER may drop rules of the initial model. *)
Definition others : list (list pyval) := [[s_ "a"; PInt 10]; [s_ "b"; PInt 15]; [s_ "a"; PDec 135 1]; [s_ "b"; PInt 14]; [s_ "a"; PInt 10]; [s_ "b"; PInt 10]].
Definition others_y : ydata := YSeries (Some (s_ "t")) [10; 11; 12; 13; 14; 15] [PInt 0; PInt 1; PInt 1; PInt 1; PInt 0; PInt 0].
Theorem C83_bins_refuted : exists first again l l',
  fit w_pandas irep_full (DRows people) (Some people_y) None None (Some [s_ "u"; s_ "v"]) MNone true [] = (first, Ok tt) /\
  fit w_pandas irep_full (DRows others) (Some others_y) None None (Some [s_ "u"; s_ "v"]) (MClf (c_rs first)) true [] = (again, Ok tt) /\
  snd (clf_predict first (DFrame people_fr) None) = Ok l /\ snd (clf_predict again (DFrame people_fr) None) = Ok l' /\
  nth_error l 1 = Some true /\ nth_error l' 1 = Some false.
Proof. do 4 eexists. do 4 (split; [vm_compute; reflexivity|]). split; reflexivity. Qed.
Print Assumptions C83_bins_refuted.
Theorem C83_ripper_refuted : exists again l,
  fit w1 ripper_bins2 (DRows people) (Some people_y) None None (Some [s_ "u"; s_ "v"]) (MStr (lit "[[u=a]V[u=b]]")) true [] = (again, Ok tt) /\
  snd (clf_predict again (DFrame people_fr) None) = Ok l /\ nth_error l 1 = Some false /\
  rs_predict [Rule_ [c_ "u" "a"]; Rule_ [c_ "u" "b"]] people_fr = Ok [true; true; true; true; true; true].
Proof. do 2 eexists. do 2 (split; [vm_compute; reflexivity|]). split; reflexivity. Qed.
Print Assumptions C83_ripper_refuted.

(** C84 on the people data *)
Example C84_nonvacuous : exists x sel bt, c_rs full_clf = Some x /\ c_bt full_clf = Some bt /\ c_feats full_clf = Some [s_ "u"; s_ "v"] /\ c_sel full_clf = Some sel /\
  forall g, In g sel -> mentions (rs_rules x) g.
Proof.
  destruct people_told as (_ & _ & TT).
  destruct (C84_feature_lists w1 irep_full (DRows people) (Some people_y) None None (Some [s_ "u"; s_ "v"]) true [] (s_ "t") (y_vals people_y) [10; 11; 12; 13; 14; 15] full_clf people_fr
    w1_ok people_input people_nodup) as (x & sel & bt & E1 & E2 & E3 & E4 & _ & _ & _ & K);
    [discriminate|discriminate|right; eexists; split; [reflexivity|discriminate]|vm_compute; reflexivity|exact people_fr_table|].
  exists x, sel, bt. split; auto. split; auto. split; auto. split; auto. apply K; [reflexivity|].
  assert (Q : c_bt full_clf = Some people_bt) by (vm_compute; reflexivity). rewrite Q in E2. injection E2 as <-. exact TT.
Qed.
