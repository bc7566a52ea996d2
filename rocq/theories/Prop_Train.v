(** * Prop_Train.v : C76, C77 -- a fitted model on its own training data *)
From Verif Require Import TrainSpec TrainView ClfFacts FitRun Prop_Fit Prop_Classifier Prop_FitModel Prop_Fires Prop_Irep Prop_Helpers Demo ScoreFacts.
From Coq Require Import Lqa.
Open Scope nat_scope.

Lemma selected_mentioned l f : In f (selected_features l) -> mentions l f.
Proof. intros I. apply dedup_by_In in I. apply in_flat_map in I. destruct I as (r & I1 & I2). apply in_map_iff in I2. destruct I2 as (c & <- & I3). exists r, c. auto. Qed.
Lemma seen_usable bt f fr vs df c : seen_by bt f fr vs df -> from_data df f c -> usable fr f (cfeat c).
Proof.
  intros S (I & N & rw & Irw & V). rewrite py_eq_sym in N. split; auto. apply (sb_cols _ _ _ _ _ S); auto. eapply value_column_present; eauto.
Qed.
Lemma usable_same f fr fr2 g : same_data f fr fr2 -> usable fr f g -> usable fr2 f g.
Proof. intros (_ & H & _) [C N]. split; auto. apply H; auto. Qed.

(** everything known after fit(X, y) without an initial model, on data with the same features *)
Lemma fit_own w cl X y cf pc names cnopt kw f vs ix cl' X2 names2 fr fr2 : world_ok w -> training_input X y cf names f vs ix -> NoDup ix ->
  (0 <= h_prune (hyper_of cl kw))%Q -> (h_prune (hyper_of cl kw) <= 1)%Q -> nbins_fine (h_nbins (hyper_of cl kw)) ->
  fit w cl X y cf pc names MNone cnopt kw = (cl', Ok tt) ->
  table_of X names fr -> prediction_input X2 names2 f fr2 -> good_frame fr2 -> distinct_labels fr2 -> same_data f fr fr2 ->
  exists df df0 p bt x1 x2, fitted w cl X y cf pc names MNone cnopt kw cl' df f p bt (Ruleset_ []) x1 x2 /\
    training_df X y f names = Ok df0 /\ transform bt df0 = Ok df /\ good_frame df /\
    good_frame fr /\ seen_by bt f fr vs df /\ ready cl' x2 f p (selected_features (rs_rules x1)) /\
    suits cl' x2 f (selected_features (rs_rules x1)) bt X2 names2 fr2 /\
    forall r c, In r (rs_rules x2) -> In c (conds r) -> usable fr f (cfeat c).
Proof.
  intros WO T ND P0 P1 NB H TB PI G2 L2 SD.
  destruct (fit_trained _ _ _ _ _ _ _ _ _ _ _ _ _ _ WO T ND P0 P1 NB H) as (df & df0 & p & bt & xi & x1 & x2 & xx & pp & nn & p' & n' & FT & G & L & HC & TD & TR & ST).
  assert (EX := ft_init _ _ _ _ _ _ _ _ _ _ _ _ _ _ _ _ _ _ FT). cbn in EX. injection EX as <-.
  assert (FP := ft_pre _ _ _ _ _ _ _ _ _ _ _ _ _ _ _ _ _ _ FT).
  destruct (train_view _ _ _ _ _ _ _ _ _ _ _ _ _ _ _ _ WO (nbins_fine_ok _ NB) T ND TB FP) as (GF & NE & SB & BF).
  assert (SBT := fit_pre_sound _ _ _ _ _ _ _ _ _ _ _ _ _ _ _ WO (nbins_fine_ok _ NB) T FP).
  assert (U1 : forall r c, In r (rs_rules x1) -> In c (conds r) -> usable fr f (cfeat c)).
  { intros r c I J. eapply seen_usable; [exact SB|]. eapply train_from_data; [exact ST|exact (ft_train _ _ _ _ _ _ _ _ _ _ _ _ _ _ _ _ _ _ FT)|exact I|exact J]. }
  assert (U2 : forall r c, In r (rs_rules x2) -> In c (conds r) -> usable fr f (cfeat c)).
  { intros r c I J. destruct (finish_In _ _ _ _ _ _ _ _ _ (ft_finish _ _ _ _ _ _ _ _ _ _ _ _ _ _ _ _ _ _ FT) I) as (r1 & I1 & EC). rewrite EC in J. eauto. }
  exists df, df0, p, bt, x1, x2. split; [exact FT|]. split; [auto|]. split; [auto|]. split; [auto|]. split; [auto|]. split; [auto|].
  destruct FT as [_ _ FTR FF FR FC FPC FB FS FA FH FCl (feats & _ & FFe)]. split.
  { constructor; auto. congruence. } split; [|exact U2].
  constructor; auto.
  - intros Z. destruct SD as (LL & _). rewrite Z in LL. destruct (frows fr); [congruence|discriminate].
  - eapply same_binnable; eauto.
  - intros g I. apply selected_mentioned in I. destruct I as (r & c & I & J & ->). eapply usable_same; eauto.
  - intros g (r & c & I & J & ->). eapply usable_same; eauto.
Qed.
Lemma own_holds bt f fr fr2 i rx rx2 r : same_data f fr fr2 -> nth_error (frows fr) i = Some rx -> nth_error (frows fr2) i = Some rx2 ->
  (forall c, In c (conds r) -> usable fr f (cfeat c)) -> (holds bt (fcols fr2) rx2 r <-> holds bt (fcols fr) rx r).
Proof.
  intros SD H1 H2 U. unfold holds. split; intros K c I; destruct (K c I) as (w & S & E); exists w; split; auto; destruct (U c I) as [_ N]; apply (same_sees bt f fr fr2 SD i rx rx2 H1 H2 (cfeat c) w N); exact S.
Qed.
Lemma seen_holds bt f fr vs df i rx rd r : seen_by bt f fr vs df -> nth_error (frows fr) i = Some rx -> nth_error (frows df) i = Some rd ->
  (forall c, In c (conds r) -> usable fr f (cfeat c)) -> (sat_rule (fcols df) rd r <-> holds bt (fcols fr) rx r).
Proof.
  intros S H1 H2 U. unfold holds, sat_rule, sat_conds, sat_cond. split; intros K c I; destruct (K c I) as (w & V & E); exists w; split; auto; destruct (U c I) as [_ N]; eapply (sb_cells _ _ _ _ _ S); eauto.
Qed.
Lemma Forall2_nth {A B} (R : A -> B -> Prop) l k i a : Forall2 R l k -> nth_error l i = Some a -> exists b, nth_error k i = Some b /\ R a b.
Proof. intros F. revert i. induction F; intros [|i] N; try discriminate; cbn in *; eauto. injection N as <-. eauto. Qed.
Lemma nth_same {A B} (l : list A) (k : list B) i a : length l = length k -> nth_error l i = Some a -> exists b, nth_error k i = Some b.
Proof. intros L H. assert (i < length k) by (rewrite <- L; apply nth_error_Some; congruence). destruct (nth_error k i) eqn:E; eauto. apply nth_error_None in E. lia. Qed.

(** C76. After fit, predict works on the training data itself -- in the form it was given to fit, or without the class column, with
    other row labels or another order of the columns -- with and without reasons. The i-th answer says whether some rule holds
    of the i-th training row, and the i-th reasons are the rules that do; every rule is a reason for at least one training row of
    the positive class, which predict therefore reports as positive. *)
Theorem C76_training_data : forall w cl X y cf pc names cnopt kw f vs ix cl' X2 names2 fr fr2,
  world_ok w -> training_input X y cf names f vs ix -> NoDup ix ->
  let h := hyper_of cl kw in
  (0 <= h_prune h)%Q -> (h_prune h <= 1)%Q -> (h_nbins h = None \/ exists n, h_nbins h = Some n /\ (0 <= n)%Z) ->
  fit w cl X y cf pc names MNone cnopt kw = (cl', Ok tt) ->
  table_of X names fr -> prediction_input X2 names2 f fr2 -> good_frame fr2 -> distinct_labels fr2 -> same_data f fr fr2 ->
  exists x bt p preds reasons,
    c_rs cl' = Some x /\ c_bt cl' = Some bt /\ c_pc cl' = Some p /\
    clf_predict cl' X2 names2 = (cl', Ok preds) /\ clf_predict_reasons cl' X2 names2 = (cl', Ok (preds, reasons)) /\
    length preds = length (frows fr) /\ length reasons = length (frows fr) /\
    (forall i rx, nth_error (frows fr) i = Some rx ->
      (nth_error preds i = Some true <-> some_holds bt (fcols fr) rx (rs_rules x)) /\
      exists rr, nth_error reasons i = Some rr /\ picks (holds bt (fcols fr) rx) (rs_rules x) rr) /\
    (forall r, In r (rs_rules x) -> exists i v rr, nth_error vs i = Some v /\ py_eq v p = true /\
      nth_error reasons i = Some rr /\ In r rr /\ nth_error preds i = Some true).
Proof.
  intros w cl X y cf pc names cnopt kw f vs ix cl' X2 names2 fr fr2 WO T ND h P0 P1 NB H TB PI G2 L2 SD.
  destruct (fit_own _ _ _ _ _ _ _ _ _ _ _ _ _ _ _ _ _ WO T ND P0 P1 NB H TB PI G2 L2 SD) as (df & df0 & p & bt & x1 & x & FT & TD & TR & G & GF & SB & RD & SU & U).
  assert (FB := ft_bt _ _ _ _ _ _ _ _ _ _ _ _ _ _ _ _ _ _ FT).
  destruct (C03_classifier_reasons _ _ _ _ _ _ _ _ _ RD FB SU) as (preds & reasons & ER & EP & FR).
  destruct (C01_classifier_predict _ _ _ _ _ _ _ _ _ RD FB SU) as (preds' & EP' & FPR). rewrite EP in EP'. injection EP' as <-.
  assert (LN := proj1 SD). assert (LP := Forall2_length _ _ _ FPR). assert (LR := Forall2_length _ _ _ FR).
  exists x, bt, p, preds, reasons. split; [apply RD|]. split; [auto|]. split; [apply RD|]. split; [auto|]. split; [auto|]. split; [congruence|]. split; [congruence|].
  assert (ROW : forall i rx, nth_error (frows fr) i = Some rx ->
      (nth_error preds i = Some true <-> some_holds bt (fcols fr) rx (rs_rules x)) /\
      exists rr, nth_error reasons i = Some rr /\ picks (holds bt (fcols fr) rx) (rs_rules x) rr).
  { intros i rx N1. destruct (nth_same _ (frows fr2) i rx (eq_sym LN) N1) as (rx2 & N2).
    assert (HH : forall r, In r (rs_rules x) -> (holds bt (fcols fr2) rx2 r <-> holds bt (fcols fr) rx r)) by (intros r I; eapply own_holds; eauto).
    destruct (Forall2_nth _ _ _ _ _ FPR N2) as (q & Nq & Q). destruct (Forall2_nth _ _ _ _ _ FR N2) as (rr & Nr & PK). split.
    - rewrite Nq. split; [intros E; injection E as ->|intros E; f_equal; apply Q].
      + destruct (proj1 Q eq_refl) as (r & I & K). exists r. split; auto. apply HH; auto.
      + destruct E as (r & I & K). exists r. split; auto. apply HH; auto.
    - exists rr. split; auto. eapply picks_ext; [|exact PK]. exact HH. }
  split; [exact ROW|]. intros r I.
  destruct (fit_rules _ _ _ _ _ _ _ _ _ _ _ _ _ _ _ WO T ND P0 P1 NB H (rd_rs _ _ _ _ _ RD) I) as [_ (bt' & t & df' & p0 & rw & A1 & A2 & A3 & A4 & A5 & A6 & (v & A7 & A7') & A8)].
  assert (bt' = bt) by congruence. subst bt'. assert (t = df0) by congruence. subst t. assert (df' = df) by congruence. subst df'.
  assert (p0 = p) by (assert (K := rd_pc _ _ _ _ _ RD); congruence). subst p0.
  apply In_nth_error in A6. destruct A6 as (i & Ni). destruct (nth_same _ (frows fr) i rw (sb_len _ _ _ _ _ SB) Ni) as (rx & N1).
  destruct (nth_same _ vs i rx (eq_sym (sb_vs _ _ _ _ _ SB)) N1) as (v' & Nv). assert (V' := sb_class _ _ _ _ _ SB i rw v' Ni Nv).
  assert (v' = v). { destruct G as [_ D]. rewrite value_at_cell in V', A7 by auto. congruence. } subst v'.
  assert (HR : holds bt (fcols fr) rx r) by (eapply (seen_holds bt f fr vs df i rx rw r SB N1 Ni); eauto).
  destruct (ROW i rx N1) as [K1 (rr & K2 & K3)]. exists i, v, rr. split; auto. split; auto. split; auto. split.
  - eapply picks_In; [exact K3|]. auto.
  - apply K1. exists r. auto.
Qed.
Print Assumptions C76_training_data.

(** C77. IREP without pruning and without limits on the ruleset finds every training row of the positive class ... *)
Lemma text_prints bt f fr vs df : seen_by bt f fr vs df -> text_tells bt f fr -> prints_apart df f.
Proof.
  intros SB TT c d C D E. assert (K : forall c, from_data df f c -> occurs bt f fr c).
  { clear -SB. intros c (I & N & rw & Irw & V). rewrite py_eq_sym in N. split. { destruct (sb_names _ _ _ _ _ SB _ I) as [Q|Q]; auto. rewrite py_eq_sym in Q. congruence. } split; auto. apply In_nth_error in Irw. destruct Irw as (i & Ni).
    destruct (nth_same _ (frows fr) i rw (sb_len _ _ _ _ _ SB) Ni) as (rx & N1). exists rx. split; [eapply nth_error_In; eauto|]. eapply (sb_cells _ _ _ _ _ SB); eauto. }
  apply TT; auto.
Qed.
Theorem C77_all_positives_found : forall w cl X y cf pc names cnopt kw f vs ix cl' X2 names2 fr fr2 bt p,
  c_alg cl = IREP_ -> world_ok w -> training_input X y cf names f vs ix -> NoDup ix ->
  let h := hyper_of cl kw in
  (h_prune h == 0)%Q -> no_ruleset_limits h -> (h_nbins h = None \/ exists n, h_nbins h = Some n /\ (0 <= n)%Z) -> (0 < h_alpha h)%Q ->
  fit w cl X y cf pc names MNone cnopt kw = (cl', Ok tt) -> c_bt cl' = Some bt -> c_pc cl' = Some p ->
  table_of X names fr -> text_tells bt f fr ->
  prediction_input X2 names2 f fr2 -> good_frame fr2 -> distinct_labels fr2 -> same_data f fr fr2 ->
  exists preds, clf_predict cl' X2 names2 = (cl', Ok preds) /\ length preds = length vs /\
    forall i v, nth_error vs i = Some v -> py_eq v p = true -> nth_error preds i = Some true.
Proof.
  intros w cl X y cf pc names cnopt kw f vs ix cl' X2 names2 fr fr2 bt p EA WO T ND h PZ NL NB A H BT PC TB TT PI G2 L2 SD.
  assert (P0 : (0 <= h_prune h)%Q) by lra. assert (P1 : (h_prune h <= 1)%Q) by lra.
  destruct (fit_own _ _ _ _ _ _ _ _ _ _ _ _ _ _ _ _ _ WO T ND P0 P1 NB H TB PI G2 L2 SD) as (df & df0 & p' & bt' & x1 & x & FT & TD & TR & G & GF & SB & RD & SU & U).
  assert (bt' = bt) by (assert (FB := ft_bt _ _ _ _ _ _ _ _ _ _ _ _ _ _ _ _ _ _ FT); congruence). subst bt'.
  assert (p' = p) by (assert (K := rd_pc _ _ _ _ _ RD); congruence). subst p'.
  destruct (C76_training_data _ _ _ _ _ _ _ _ _ _ _ _ _ _ _ _ _ WO T ND P0 P1 NB H TB PI G2 L2 SD) as (x' & bt' & p' & preds & reasons & E1 & E2 & E3 & E4 & _ & E6 & _ & ROW & _).
  assert (bt' = bt) by congruence. subst bt'. assert (x' = x) by (assert (K := rd_rs _ _ _ _ _ RD); congruence). subst x'.
  exists preds. split; auto. split; [rewrite (sb_vs _ _ _ _ _ SB); auto|]. intros i v Nv PV.
  destruct (nth_same _ (frows fr) i v (sb_vs _ _ _ _ _ SB) Nv) as (rx & N1). destruct (nth_same _ (frows df) i rx (eq_sym (sb_len _ _ _ _ _ SB)) N1) as (rd & N2).
  apply (ROW i rx N1).
  assert (S : sat_ruleset (fcols df) rd (rs_rules x)).
  { refine (C28_fit_covers_positives w cl X y cf pc names cnopt kw f vs ix cl' x p bt df0 df EA WO T ND PZ NL NB A H (rd_rs _ _ _ _ _ RD) PC BT TD TR (text_prints _ _ _ _ _ SB TT) rd (nth_error_In _ _ N2) _).
    exists v. split; auto. eapply sb_class; eauto. }
  destruct S as (r & I & K). exists r. split; auto. eapply (seen_holds bt f fr vs df i rx rd r SB N1 N2); eauto.
Qed.
Print Assumptions C77_all_positives_found.

(** ... and, if the classes can be told apart by the features and no value is missing, finds nothing else: with unlimited rules it
    reproduces the training labels exactly (default engine), and score(X, y) on the training data is 1. *)
Lemma told_consistent bt f p fr vs df : good_frame df -> seen_by bt f fr vs df -> told_apart bt f p fr vs -> consistent df f p.
Proof.
  intros G SB TA a b Ia Ib PA PB. apply In_nth_error in Ia. destruct Ia as (i & Ni). apply In_nth_error in Ib. destruct Ib as (j & Nj).
  destruct (nth_same _ (frows fr) i a (sb_len _ _ _ _ _ SB) Ni) as (ri & Ri). destruct (nth_same _ (frows fr) j b (sb_len _ _ _ _ _ SB) Nj) as (rj & Rj).
  destruct (nth_same _ vs i ri (eq_sym (sb_vs _ _ _ _ _ SB)) Ri) as (vi & Vi). destruct (nth_same _ vs j rj (eq_sym (sb_vs _ _ _ _ _ SB)) Rj) as (vj & Vj).
  assert (Ci := sb_class _ _ _ _ _ SB i a vi Ni Vi). assert (Cj := sb_class _ _ _ _ _ SB j b vj Nj Vj).
  assert (Pi : py_eq vi p = true). { destruct PA as (v & V & E). destruct G as [_ D]. rewrite value_at_cell in V, Ci by auto. congruence. }
  assert (Pj : py_eq vj p = false). { apply Bool.not_true_iff_false. intros E. apply PB. exists vj. auto. }
  destruct (TA i j ri rj vi vj Ri Rj Vi Vj Pi Pj) as (g & u & v & N & S1 & S2 & E). exists g, u, v.
  assert (U := proj2 (sb_cells _ _ _ _ _ SB i ri a Ri Ni g u N) S1). assert (V := proj2 (sb_cells _ _ _ _ _ SB j rj b Rj Nj g v N) S2).
  split; [eapply value_column_present; eauto|]. auto.
Qed.
Lemma missing_complete bt f fr vs df : good_frame df -> seen_by bt f fr vs df -> nothing_missing bt f fr -> complete df f.
Proof.
  intros G SB [PN NM] rw j c I N NE E. destruct (sb_names _ _ _ _ _ SB c (nth_error_In _ _ N)) as [K|K]; [congruence|]. assert (CC := PN c K).
  apply In_nth_error in I. destruct I as (i & Ni). destruct (nth_same _ (frows fr) i rw (sb_len _ _ _ _ _ SB) Ni) as (rx & Rx). rewrite py_eq_sym in NE.
  apply (NM rx c PNaN (nth_error_In _ _ Rx) NE); auto. apply (sb_cells _ _ _ _ _ SB i rx rw Rx Ni c PNaN NE). exists j, c. auto.
Qed.
Theorem C77_labels_reproduced : forall w cl X y cf pc names kw f vs ix cl' X2 names2 fr fr2 bt p,
  c_alg cl = IREP_ -> world_ok w -> training_input X y cf names f vs ix -> NoDup ix ->
  let h := hyper_of cl kw in
  (h_prune h == 0)%Q -> no_ruleset_limits h -> no_rule_limits h -> (h_nbins h = None \/ exists n, h_nbins h = Some n /\ (0 <= n)%Z) -> (0 < h_alpha h)%Q ->
  fit w cl X y cf pc names MNone true kw = (cl', Ok tt) -> c_bt cl' = Some bt -> c_pc cl' = Some p ->
  table_of X names fr -> text_tells bt f fr -> told_apart bt f p fr vs -> nothing_missing bt f fr ->
  prediction_input X2 names2 f fr2 -> good_frame fr2 -> distinct_labels fr2 -> same_data f fr fr2 ->
  clf_predict cl' X2 names2 = (cl', Ok (map (fun v => py_eq v p) vs)).
Proof.
  intros w cl X y cf pc names kw f vs ix cl' X2 names2 fr fr2 bt p EA WO T ND h PZ NL NR NB A H BT PC TB TT TA NM PI G2 L2 SD.
  assert (P0 : (0 <= h_prune h)%Q) by lra. assert (P1 : (h_prune h <= 1)%Q) by lra.
  destruct (fit_own _ _ _ _ _ _ _ _ _ _ _ _ _ _ _ _ _ WO T ND P0 P1 NB H TB PI G2 L2 SD) as (df & df0 & p' & bt' & x1 & x & FT & TD & TR & G & GF & SB & RD & SU & U).
  assert (bt' = bt) by (assert (FB := ft_bt _ _ _ _ _ _ _ _ _ _ _ _ _ _ _ _ _ _ FT); congruence). subst bt'.
  assert (p' = p) by (assert (K := rd_pc _ _ _ _ _ RD); congruence). subst p'.
  destruct (C76_training_data _ _ _ _ _ _ _ _ _ _ _ _ _ _ _ _ _ WO T ND P0 P1 NB H TB PI G2 L2 SD) as (x' & bt' & p' & preds & reasons & E1 & E2 & E3 & E4 & _ & E6 & _ & ROW & _).
  assert (bt' = bt) by congruence. subst bt'. assert (x' = x) by (assert (K := rd_rs _ _ _ _ _ RD); congruence). subst x'.
  destruct (C77_all_positives_found _ _ _ _ _ _ _ _ _ _ _ _ _ _ _ _ _ _ _ EA WO T ND PZ NL NB A H BT PC TB TT PI G2 L2 SD) as (preds' & E4' & LP & POS).
  rewrite E4 in E4'. injection E4' as <-. rewrite E4. f_equal. f_equal.
  apply nth_error_ext_eq. intros i. rewrite nth_error_map. destruct (nth_error vs i) as [v|] eqn:Nv; cbn [option_map].
  2:{ apply nth_error_None. apply nth_error_None in Nv. lia. }
  destruct (py_eq v p) eqn:PV; [apply (POS i v Nv PV)|].
  destruct (nth_same _ preds i v (eq_sym LP) Nv) as (q & Nq). rewrite Nq. f_equal. destruct q; auto. exfalso.
  destruct (nth_same _ (frows fr) i v (sb_vs _ _ _ _ _ SB) Nv) as (rx & N1). destruct (nth_same _ (frows df) i rx (eq_sym (sb_len _ _ _ _ _ SB)) N1) as (rd & N2).
  apply (ROW i rx N1) in Nq. destruct Nq as (r & I & K).
  refine (C28_fit_no_false_positives w cl X y cf pc names kw f vs ix cl' x p bt df0 df EA WO T ND PZ NR NB A H (rd_rs _ _ _ _ _ RD) PC BT TD TR (told_consistent _ _ _ _ _ _ G SB TA) (missing_complete _ _ _ _ _ G SB NM) rd (nth_error_In _ _ N2) _ _).
  - intros (u & V & E). assert (V' := sb_class _ _ _ _ _ SB i rd v N2 Nv). destruct G as [_ D]. rewrite value_at_cell in V, V' by auto. congruence.
  - exists r. split; auto. eapply (seen_holds bt f fr vs df i rx rd r SB N1 N2); eauto.
Qed.
Print Assumptions C77_labels_reproduced.
Theorem C77_training_score : forall w cl X y cf pc names kw f vs ix cl' X2 fr fr2 bt p,
  c_alg cl = IREP_ -> world_ok w -> training_input X y cf names f vs ix -> NoDup ix ->
  let h := hyper_of cl kw in
  (h_prune h == 0)%Q -> no_ruleset_limits h -> no_rule_limits h -> (h_nbins h = None \/ exists n, h_nbins h = Some n /\ (0 <= n)%Z) -> (0 < h_alpha h)%Q ->
  fit w cl X y cf pc names MNone true kw = (cl', Ok tt) -> c_bt cl' = Some bt -> c_pc cl' = Some p ->
  table_of X names fr -> text_tells bt f fr -> told_apart bt f p fr vs -> nothing_missing bt f fr ->
  prediction_input X2 None f fr2 -> good_frame fr2 -> distinct_labels fr2 -> same_data f fr fr2 ->
  exists q, clf_score score_accuracy cl' X2 (YList vs) = (cl', Ok (Some q)) /\ (q == 1)%Q.
Proof.
  intros w cl X y cf pc names kw f vs ix cl' X2 fr fr2 bt p EA WO T ND h PZ NL NR NB A H BT PC TB TT TA NM PI G2 L2 SD.
  assert (E := C77_labels_reproduced _ _ _ _ _ _ _ _ _ _ _ _ _ _ _ _ _ _ EA WO T ND PZ NL NR NB A H BT PC TB TT TA NM PI G2 L2 SD).
  unfold clf_score. rewrite E. cbn [bind y_vals]. rewrite PC. cbn [attr bind]. set (l := map (fun v => py_eq v p) vs).
  assert (NE : l <> []).
  { destruct (raw_view_len _ _ _ _ _ _ _ _ T TB) as [L NF]. intros Z. apply (f_equal (@length bool)) in Z. unfold l in Z. rewrite map_length, L in Z. destruct (frows fr); [congruence|discriminate]. }
  destruct (accuracy_value l l eq_refl) as [_ K]. destruct (K NE) as (q & EQ & V & _). rewrite EQ. exists q. split; auto. rewrite V. clear -NE.
  replace (tally true true l l + tally false false l l) with (length l).
  - unfold qn. field. destruct l; [congruence|]. unfold Qeq. cbn. lia.
  - clear. induction l as [|b l IH]; [reflexivity|]. rewrite !tally_cons. cbn [length]. rewrite IH. destruct b; cbn; lia.
Qed.
Print Assumptions C77_training_score.

(** ** The hypotheses are met: the people data, learned with two bins and without pruning, and predicted from the same rows *)
Lemma people_train_view : good_frame people_fr /\ seen_by people_bt (s_ "t") people_fr (y_vals people_y) people_table.
Proof.
  destruct (fit_pre w1 irep_full (DRows people) (Some people_y) None None (Some [s_ "u"; s_ "v"]) []) as [[[[df f'] p] bt]|] eqn:E; [|vm_compute in E; discriminate].
  destruct (train_view w1 irep_full (DRows people) (Some people_y) None None (Some [s_ "u"; s_ "v"]) [] (s_ "t") (y_vals people_y) [10; 11; 12; 13; 14; 15] people_fr df f' p bt) as (G & _ & SB & _).
  - exact w1_ok. - cbn. lia. - exact people_input. - exact people_nodup.
  - apply (table_rows_named people 2 people_fr); auto; [discriminate|]. intros r I. repeat (destruct I as [<-|I]; [reflexivity|]). destruct I.
  - exact E.
  - split; auto. assert (Q : bt = people_bt /\ df = people_table) by (vm_compute in E; injection E as <- _ _ <-; split; reflexivity). destruct Q as [-> ->]. exact SB.
Qed.
Lemma same_data_refl f fr : same_data f fr fr.
Proof. split; auto. split; [tauto|]. intros i rx rx2 g v H1 H2 _. rewrite H1 in H2. injection H2 as <-. tauto. Qed.
Lemma people_same : prediction_input (DRows people) (Some [s_ "u"; s_ "v"]) (s_ "t") people_fr.
Proof.
  apply (predict_named _ _ _ _ [s_ "u"; s_ "v"] [s_ "u"; s_ "v"] (mkframe [PInt 0; PInt 1] (frows people_fr))); auto.
  - repeat constructor.
  - apply (table_rows people 2); try reflexivity; [discriminate|]. intros r I. repeat (destruct I as [<-|I]; [reflexivity|]). destruct I.
  - intros (c & [<-|[<-|[]]] & E); discriminate.
  - apply (table_rows_named people 2 people_fr); auto; [discriminate|]. intros r I. repeat (destruct I as [<-|I]; [reflexivity|]). destruct I.
Qed.
Lemma people_told : told_apart people_bt (s_ "t") (PInt 1) people_fr (y_vals people_y) /\ nothing_missing people_bt (s_ "t") people_fr /\ text_tells people_bt (s_ "t") people_fr.
Proof.
  destruct people_train_view as [GF SB]. assert (G := people_table_good). split; [|split].
  - intros i j ri rj vi vj Ri Rj Vi Vj Pi Pj.
    destruct (nth_same _ (frows people_table) i ri (eq_sym (sb_len _ _ _ _ _ SB)) Ri) as (a & Na). destruct (nth_same _ (frows people_table) j rj (eq_sym (sb_len _ _ _ _ _ SB)) Rj) as (b & Nb).
    assert (Ca := sb_class _ _ _ _ _ SB i a vi Na Vi). assert (Cb := sb_class _ _ _ _ _ SB j b vj Nb Vj).
    destruct (people_consistent a b (nth_error_In _ _ Na) (nth_error_In _ _ Nb)) as (g & u & v & _ & N & U & V & E).
    + exists vi. auto.
    + intros (v & V & E). destruct G as [_ D]. rewrite value_at_cell in V, Cb by auto. congruence.
    + exists g, u, v. split; auto. split; [eapply (sb_cells _ _ _ _ _ SB i ri a); eauto|]. split; auto. eapply (sb_cells _ _ _ _ _ SB j rj b); eauto.
  - split; [intros c [<-|[<-|[]]]; reflexivity|]. intros rx g v I N S E. subst v. apply In_nth_error in I. destruct I as (i & Ni).
    destruct (nth_same _ (frows people_table) i rx (eq_sym (sb_len _ _ _ _ _ SB)) Ni) as (rd & Nd). apply (sb_cells _ _ _ _ _ SB i rx rd Ni Nd g PNaN N) in S.
    destruct S as (j & c & N1 & E & N2). apply (people_complete rd j c (nth_error_In _ _ Nd) N1); auto. apply Bool.not_true_iff_false. intros K.
    assert (py_eq g (s_ "t") = true) by (eapply py_eq_trans; [rewrite py_eq_sym; exact E|exact K]). rewrite py_eq_sym in N. congruence.
  - assert (PA : prints_apart people_table (s_ "t")) by (apply prints_apart_check; [exact people_table_good|vm_compute; reflexivity]).
    assert (K : forall c, occurs people_bt (s_ "t") people_fr c -> from_data people_table (s_ "t") c).
    { intros c (I & N & rx & Ir & S). split; [destruct I as [<-|[<-|[]]]; [left; reflexivity|right; left; reflexivity]|]. split; [rewrite py_eq_sym; auto|]. apply In_nth_error in Ir. destruct Ir as (i & Ni).
      destruct (nth_same _ (frows people_table) i rx (eq_sym (sb_len _ _ _ _ _ SB)) Ni) as (rd & Nd). exists rd. split; [eapply nth_error_In; eauto|]. eapply (sb_cells _ _ _ _ _ SB i rx rd); eauto. }
    intros c d C D E. apply PA; auto.
Qed.
Lemma people_fr_table : table_of (DRows people) (Some [s_ "u"; s_ "v"]) people_fr.
Proof. apply (table_rows_named people 2 people_fr); auto; [discriminate|]. intros r I. repeat (destruct I as [<-|I]; [reflexivity|]). destruct I. Qed.
Example C77_nonvacuous : clf_predict full_clf (DRows people) (Some [s_ "u"; s_ "v"]) = (full_clf, Ok [false; true; true; true; true; false]).
Proof.
  destruct people_told as (TA & NM & TT). destruct people_train_view as [GF SB].
  refine (C77_labels_reproduced w1 irep_full (DRows people) (Some people_y) None None (Some [s_ "u"; s_ "v"]) [] (s_ "t") (y_vals people_y) [10; 11; 12; 13; 14; 15] full_clf (DRows people) (Some [s_ "u"; s_ "v"])
    people_fr people_fr people_bt (PInt 1) eq_refl w1_ok people_input people_nodup _ _ _ _ _ _ _ _ people_fr_table TT TA NM people_same GF _ (same_data_refl _ _));
    [reflexivity|repeat split; reflexivity|repeat split; reflexivity|right; eexists; split; [reflexivity|discriminate]|reflexivity|vm_compute; reflexivity|vm_compute; reflexivity|vm_compute; reflexivity|].
  repeat constructor; cbn; intuition discriminate.
Qed.
Example C77_score_nonvacuous : exists q, clf_score score_accuracy full_clf (DFrame people_fr) (YList (y_vals people_y)) = (full_clf, Ok (Some q)) /\ (q == 1)%Q.
Proof.
  destruct people_told as (TA & NM & TT). destruct people_train_view as [GF SB].
  refine (C77_training_score w1 irep_full (DRows people) (Some people_y) None None (Some [s_ "u"; s_ "v"]) [] (s_ "t") (y_vals people_y) [10; 11; 12; 13; 14; 15] full_clf (DFrame people_fr)
    people_fr people_fr people_bt (PInt 1) eq_refl w1_ok people_input people_nodup _ _ _ _ _ _ _ _ people_fr_table TT TA NM _ GF _ (same_data_refl _ _));
    [reflexivity|repeat split; reflexivity|repeat split; reflexivity|right; eexists; split; [reflexivity|discriminate]|reflexivity|vm_compute; reflexivity|vm_compute; reflexivity|vm_compute; reflexivity|apply predict_plain; [reflexivity|constructor]|].
  repeat constructor; cbn; intuition discriminate.
Qed.
(** C76 for a RIPPER model, too *)
Definition ripper_clf : clf := fst (fit w1 ripper_bins2 (DRows people) (Some people_y) None None (Some [s_ "u"; s_ "v"]) MNone true []).
Example C76_nonvacuous : exists preds reasons, clf_predict_reasons ripper_clf (DRows people) (Some [s_ "u"; s_ "v"]) = (ripper_clf, Ok (preds, reasons)) /\
  option_map (fun x => length (rs_rules x)) (c_rs ripper_clf) = Some 1 /\ (exists i, nth_error (y_vals people_y) i = Some (PInt 1) /\ nth_error preds i = Some true).
Proof.
  destruct people_train_view as [GF SB].
  edestruct (C76_training_data w1 ripper_bins2 (DRows people) (Some people_y) None None (Some [s_ "u"; s_ "v"]) true [] (s_ "t") (y_vals people_y) [10; 11; 12; 13; 14; 15] ripper_clf (DRows people) (Some [s_ "u"; s_ "v"])
    people_fr people_fr w1_ok people_input people_nodup) as (x & bt & p & preds & reasons & E1 & E2 & E3 & E4 & E5 & _ & _ & _ & RULES);
    [discriminate|discriminate|right; eexists; split; [reflexivity|discriminate]|vm_compute; reflexivity|exact people_fr_table|exact people_same|exact GF|repeat constructor; cbn; intuition discriminate|apply same_data_refl|].
  exists preds, reasons. split; auto. split; [vm_compute; reflexivity|].
  assert (NE : exists r, In r (rs_rules x)). { vm_compute in E1. injection E1 as <-. eexists. left. reflexivity. }
  destruct NE as (r & I). destruct (RULES r I) as (i & v & rr & N1 & Q & _ & _ & N2). exists i. split; auto. rewrite N1. f_equal.
  assert (p = PInt 1) by (vm_compute in E3; congruence). subst p. clear -N1 Q. do 6 (destruct i as [|i]; [cbn in N1; injection N1 as <-; first [reflexivity|discriminate]|]). destruct i; discriminate.
Qed.
