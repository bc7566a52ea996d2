(** * Prop_FitModel.v : the fitted model: its statistics, its coverage of the training data, and what it can predict on (C01, C28, C55, C63) *)
From Verif Require Import ClfFacts Demo Prop_Irep Prop_Ripper Prop_Helpers Prop_Prep Prop_Fit Prop_Classifier.
From Coq Require Import Lqa.
Open Scope nat_scope.

Definition nbins_fine (o : option Z) : Prop := o = None \/ exists n, o = Some n /\ (0 <= n)%Z.
Lemma nbins_fine_ok o : nbins_fine o -> nbins_ok o.
Proof. intros [->|(n & -> & ?)]; cbn; auto. Qed.
Lemma fit_trained w cl X y cf pc names init cnopt kw f vs ix cl' : world_ok w -> training_input X y cf names f vs ix -> NoDup ix ->
  (0 <= h_prune (hyper_of cl kw))%Q -> (h_prune (hyper_of cl kw) <= 1)%Q -> nbins_fine (h_nbins (hyper_of cl kw)) ->
  fit w cl X y cf pc names init cnopt kw = (cl', Ok tt) ->
  exists df df0 p bt xi x1 x2 xx pp nn p' n', fitted w cl X y cf pc names init cnopt kw cl' df f p bt xi x1 x2 /\
    good_frame df /\ distinct_labels df /\ has_col df f = true /\ training_df X y f names = Ok df0 /\ transform bt df0 = Ok df /\
    setting (w_env w) (hyper_of cl kw) df f p xx pp nn p' n'.
Proof.
  intros WO T ND P0 P1 NB H. destruct (fit_fitted _ _ _ _ _ _ _ _ _ _ _ H) as (df & f' & p & bt & xi & x1 & x2 & FT).
  destruct (pre_good _ _ _ _ _ _ _ _ _ _ _ _ _ _ _ WO (nbins_fine_ok _ NB) T ND (ft_pre _ _ _ _ _ _ _ _ _ _ _ _ _ _ _ _ _ _ FT)) as (-> & G & L & HC & NE & CV & df0 & TD & TR).
  assert (C : column_present df f) by (apply has_col_iff; auto). destruct WO as [Eo _].
  destruct (setting_exists (w_env w) (hyper_of cl kw) df f p Eo P0 P1 G L C) as (xx & pp & nn & p' & n' & ST).
  exists df, df0, p, bt, xi, x1, x2, xx, pp, nn, p', n'. split; [exact FT|]. split; [auto|]. split; [auto|]. split; [auto|]. split; [auto|]. split; [auto|exact ST].
Qed.
Lemma train_from_data a e h cnopt df f p xx pp nn p' n' x1 r c : setting e h df f p xx pp nn p' n' -> train a e h cnopt df f p (Ruleset_ []) = Ok x1 ->
  In r (rs_rules x1) -> In c (conds r) -> from_data df f c.
Proof. intros ST T I J. destruct a; cbn [train] in T; [eapply C26_irep_conditions_from_data; eauto|eapply C26_ripper_conditions_from_data; eauto]. Qed.

(** features named by the conditions of rules are among the recorded ones *)
Lemma selected_In l f : mentions l f -> exists g, In g (selected_features l) /\ (g = f \/ py_eq g f = true).
Proof.
  intros (r & c & I & J & ->). unfold selected_features.
  assert (K : In (cfeat c) (flat_map (fun r => map cfeat (conds r)) l)) by (apply in_flat_map; exists r; split; auto; apply in_map; auto).
  revert K. generalize (flat_map (fun r => map cfeat (conds r)) l) as k. intros k.
  assert (H : forall seen, In (cfeat c) k -> (exists g, In g seen /\ py_eq g (cfeat c) = true) \/ exists g, In g (dedup_by py_eq seen k) /\ (g = cfeat c \/ py_eq g (cfeat c) = true)).
  { induction k as [|a k IH]; intros seen K; [contradiction|]. cbn [dedup_by]. destruct (existsb (fun b => py_eq b a) seen) eqn:E.
    - destruct K as [->|K]; [apply existsb_exists in E; left; auto|apply IH; auto].
    - destruct K as [->|K]; [right; exists (cfeat c); split; [left; auto|auto]|].
      destruct (IH (seen ++ [a]) K) as [(g & Ig & Eg)|(g & Ig & Eg)].
      + apply in_app_or in Ig. destruct Ig as [Ig|[->|[]]]; [left; eauto|right; exists g; split; [left; auto|auto]].
      + right. exists g. split; [right; auto|auto]. }
  intros K. destruct (H [] K) as [(g & [] & _)|X]; exact X.
Qed.
Lemma usable_eq fr cf g f : py_eq g f = true -> usable fr cf g -> usable fr cf f.
Proof.
  intros E [(c & I & Ec) N]. split.
  - exists c. split; auto. eapply py_eq_trans; eauto.
  - apply Bool.not_true_iff_false. intros X. assert (py_eq cf g = true) by (eapply py_eq_trans; [exact X|rewrite py_eq_sym; exact E]). congruence.
Qed.
Lemma selected_usable fr cf l : (forall g, In g (selected_features l) -> usable fr cf g) -> forall f, mentions l f -> usable fr cf f.
Proof. intros H f M. destruct (selected_In l f M) as (g & I & [->|E]); auto. eapply usable_eq; eauto. Qed.
(** bins made by fit are usable *)
Lemma fit_pre_sound w cl X y cf pc names kw f vs ix df f' p bt : world_ok w -> nbins_ok (h_nbins (hyper_of cl kw)) -> training_input X y cf names f vs ix ->
  fit_pre w cl X y cf pc names kw = Ok (df, f', p, bt) -> sound_bt bt.
Proof.
  intros [_ C] N T E. destruct (input_pre _ _ _ _ _ _ _ T) as (df0 & G & HC & EC & EL & NE & TD & PR).
  rewrite PR in E. binv E. rename v into p', E0 into P. unfold fit_transform in E. destruct G as [W D].
  destruct (fit_bins_ok (w_cut w) (fit_nbins cl kw) df0 [f] C N D) as (bins & EB & DK & B). rewrite EB in E. cbn [bind] in E. binv E. binv E0. injection E0 as <-.
  injection E as _ _ _ <-. right. exists bins. split; auto. split; auto. split; auto. intros g b I. destruct (B g b I) as (_ & _ & _ & X0). exact X0.
Qed.

(** C55, partial: a fitted classifier predicts, exactly, on any data that has all the features recorded during fit (selected_features_):
    for every learner, initial model, hyperparameters. Missing: the features of the final rules alone are not enough, see below. *)
Theorem C55_fitted_predict_partial : forall w cl X y cf pc names init cnopt kw f vs ix cl' x sel bt X2 names2 fr,
  world_ok w -> training_input X y cf names f vs ix -> NoDup ix ->
  (0 <= h_prune (hyper_of cl kw))%Q -> (h_prune (hyper_of cl kw) <= 1)%Q -> nbins_fine (h_nbins (hyper_of cl kw)) ->
  fit w cl X y cf pc names init cnopt kw = (cl', Ok tt) -> c_rs cl' = Some x -> c_sel cl' = Some sel -> c_bt cl' = Some bt ->
  prediction_input X2 names2 f fr -> good_frame fr -> frows fr <> [] -> distinct_labels fr -> binnable bt fr f ->
  (forall g, In g sel -> usable fr f g) ->
  exists preds, clf_predict cl' X2 names2 = (cl', Ok preds) /\
    Forall2 (fun rw p => p = true <-> some_holds bt (fcols fr) rw (rs_rules x)) (frows fr) preds.
Proof.
  intros w cl X y cf pc names init cnopt kw f vs ix cl' x sel bt X2 names2 fr WO T ND P0 P1 NB H RS SEL BT PI G NE DL BN US.
  destruct (fit_trained _ _ _ _ _ _ _ _ _ _ _ _ _ _ WO T ND P0 P1 NB H) as (df & df0 & p & bt' & xi & x1 & x2 & xx & pp & nn & p' & n' & FT & _ & _ & _ & _ & _ & ST).
  assert (SB := fit_pre_sound _ _ _ _ _ _ _ _ _ _ _ _ _ _ _ WO (nbins_fine_ok _ NB) T (ft_pre _ _ _ _ _ _ _ _ _ _ _ _ _ _ _ _ _ _ FT)).
  destruct FT as [FP FI FTR FF FR FC FPC FB FS FA FH FCl (feats & _ & FFe)]. rewrite FR in RS. injection RS as <-. rewrite FS in SEL. injection SEL as <-.
  rewrite FB in BT. injection BT as <-.
  assert (R : ready cl' x2 f p (selected_features (rs_rules x1))) by (constructor; auto; congruence).
  assert (S : suits cl' x2 f (selected_features (rs_rules x1)) bt' X2 names2 fr).
  { constructor; auto. intros g (r & c & I & J & ->). destruct (finish_In _ _ _ _ _ _ _ _ _ FF I) as (r1 & I1 & EC). rewrite EC in J.
    eapply (selected_usable fr f (rs_rules x1) US). exists r1, c; auto. }
  destruct (prediction_frame_views _ _ _ _ _ _ _ _ _ R S) as (dv & E & V).
  destruct (views_predict _ _ _ _ _ _ _ _ _ S V) as (preds & EP & F). exists preds. split; auto.
  unfold clf_predict, ensure_bt. rewrite FR, FB. cbn [bind]. rewrite E. cbn [bind]. rewrite EP. reflexivity.
Qed.
Print Assumptions C55_fitted_predict_partial.
(** C55, refuted: selected_features_ is recorded before the last rules are trimmed off, so predict raises IndexError on data that has every
    feature of the final ruleset. *)
Definition two_rules : ruleset := Ruleset_ [Rule_ [c_ "u" "b"]; Rule_ [c_ "v" ">-1.0"]].
Definition trimmed : clf := fst (fit w1 (construct IREP_ [(P_nbins, VOpt (Some 2%Z)); (P_max_total_conds, VOpt (Some 1%Z))]) (DRows people) (Some people_y) None None
  (Some [s_ "u"; s_ "v"]) (MRuleset two_rules) true []).
Definition only_u : frame := mkframe [s_ "u"] [mkrow 0 [s_ "b"]; mkrow 1 [s_ "a"]].
Theorem C55_selected_features_refuted :
  snd (fit w1 (construct IREP_ [(P_nbins, VOpt (Some 2%Z)); (P_max_total_conds, VOpt (Some 1%Z))]) (DRows people) (Some people_y) None None
    (Some [s_ "u"; s_ "v"]) (MRuleset two_rules) true []) = Ok tt /\
  (exists x, c_rs trimmed = Some x /\ map rule_str (rs_rules x) = [$"[u=b]"] /\ features_present only_u (rs_rules x)) /\
  good_frame only_u /\ distinct_labels only_u /\ clf_predict trimmed (DFrame only_u) None = (trimmed, Err IndexError).
Proof.
  split; [vm_compute; reflexivity|]. split.
  - eexists. split; [vm_compute; reflexivity|]. split; [vm_compute; reflexivity|]. apply all_present_iff. vm_compute. reflexivity.
  - split; [apply good_frameb_ok; reflexivity|]. split; [repeat constructor; cbn; intuition discriminate|]. vm_compute. reflexivity.
Qed.
Print Assumptions C55_selected_features_refuted.

(** ** C63: statistics after fit *)

(** the statistics a rule should carry after training on the table *)
Definition rule_exact (alpha : Q) (table : frame) (f p : pyval) (r : rule) : Prop :=
  exists s covered, rstats r = Some s /\ picks (fun rw => sat_rule (fcols table) rw r) (frows table) covered /\ stats_of_rows alpha (fcols table) f p covered s.
Definition uncovered_exact (alpha : Q) (table : frame) (f p : pyval) (x : ruleset) : Prop :=
  exists s uncovered, rs_uncov x = Some s /\ picks (fun rw => ~ sat_ruleset (fcols table) rw (rs_rules x)) (frows table) uncovered /\
    stats_of_rows alpha (fcols table) f p uncovered s.
(** different conditions made from the table print differently *)
Definition prints_apart (table : frame) (f : pyval) : Prop :=
  forall c d, from_data table f c -> from_data table f d -> cond_str c = cond_str d ->
    py_eq (cfeat c) (cfeat d) = true /\ py_eq (cval c) (cval d) = true.

Lemma recalibrate_present alpha rs fr cf pc rs' : recalibrate alpha rs fr cf pc = Ok rs' -> features_present fr (rs_rules rs).
Proof.
  unfold recalibrate. intros H. binv H. unfold check_features in E. destruct (forallb _ _) eqn:F; [|discriminate]. rewrite forallb_forall in F.
  intros f M. destruct (selected_In _ _ M) as (g & I & [->|K]); [apply has_col_iff; auto|]. specialize (F g I). apply has_col_iff in F. destruct F as (c & Ic & Ec).
  exists c. split; auto. eapply py_eq_trans; eauto.
Qed.
Lemma sat_conds_eq cols rw r r' : conds r = conds r' -> (sat_rule cols rw r <-> sat_rule cols rw r'). Proof. unfold sat_rule. intros ->. tauto. Qed.
Lemma picks_ext {A} (P Q : A -> Prop) l k : (forall a, In a l -> (P a <-> Q a)) -> picks P l k -> picks Q l k.
Proof. intros H K. induction K; constructor; try (rewrite <- H; cbn; auto; fail); try (apply IHK; intros; apply H; right; auto); rewrite <- H; cbn; auto. Qed.
Lemma recal_exact alpha rs fr cf pc rs' : (0 < alpha)%Q -> good_frame fr -> distinct_labels fr -> column_present fr cf -> recalibrate alpha rs fr cf pc = Ok rs' ->
  (forall r, In r (rs_rules rs') -> rule_exact alpha fr cf pc r) /\ uncovered_exact alpha fr cf pc rs' /\ Forall2 same_conds (rs_rules rs') (rs_rules rs).
Proof.
  intros A G L C E. assert (P := recalibrate_present _ _ _ _ _ _ E). destruct (recalibrate_exact alpha rs fr cf pc A G L P C) as (rs2 & E2 & _ & F & U).
  rewrite E in E2. injection E2 as <-. assert (SC : Forall2 same_conds (rs_rules rs') (rs_rules rs)). { apply recalibrate_conds in E. apply map_conds_forall; auto. }
  split; [|split; auto].
  - intros r I. clear -F I. induction F as [|a b l l' H F IH]; [contradiction|]. destruct I as [<-|I]; auto. destruct H as (EC & s & cov & E1 & K & S).
    exists s, cov. split; auto. split; auto. eapply picks_ext; [|exact K]. intros rw _. apply sat_conds_eq; auto.
  - destruct U as (s & unc & E1 & K & S). exists s, unc. split; auto. split; auto. eapply picks_ext; [|exact K]. intros rw _. apply not_iff_compat.
    clear -SC. unfold sat_ruleset. split; intros (r & I & K).
    + assert (F : Forall2 same_conds (rs_rules rs) (rs_rules rs')) by (apply map_conds_forall; symmetry; apply map_conds_forall; auto).
      destruct (Forall2_In_l _ _ _ _ F I) as (r' & I' & E). exists r'. split; auto. eapply sat_conds_eq; [|exact K]. symmetry; exact E.
    + destruct (Forall2_In_l _ _ _ _ SC I) as (r' & I' & E). exists r'. split; auto. eapply sat_conds_eq; [|exact K]. symmetry; exact E.
Qed.

(** Every rule of a fitted model, RIPPER or IREP, whatever the initial model, carries exactly the statistics of the training rows it covers. *)
Theorem C63_rule_statistics : forall w cl X y cf pc names init cnopt kw f vs ix cl' x p bt,
  world_ok w -> training_input X y cf names f vs ix -> NoDup ix ->
  let h := hyper_of cl kw in
  (0 <= h_prune h)%Q -> (h_prune h <= 1)%Q -> nbins_fine (h_nbins h) -> (0 < h_alpha h)%Q ->
  fit w cl X y cf pc names init cnopt kw = (cl', Ok tt) -> c_rs cl' = Some x -> c_pc cl' = Some p -> c_bt cl' = Some bt ->
  exists raw table, training_df X y f names = Ok raw /\ transform bt raw = Ok table /\
    (forall r, In r (rs_rules x) -> rule_exact (h_alpha h) table f p r) /\
    (c_alg cl = RIPPER_ -> uncovered_exact (h_alpha h) table f p x).
Proof.
  intros w cl X y cf pc names init cnopt kw f vs ix cl' x p bt WO T ND h P0 P1 NB A H RS PC BT.
  destruct (fit_trained _ _ _ _ _ _ _ _ _ _ _ _ _ _ WO T ND P0 P1 NB H) as (df & df0 & p1 & bt' & xi & x1 & x2 & xx & pp & nn & p' & n' & FT & G & L & HC & TD & TR & ST).
  destruct FT as [FP FI FTR FF FR FC FPC FB FS FA FH FCl FFe]. rewrite FR in RS. injection RS as <-. rewrite FPC in PC. injection PC as <-. rewrite FB in BT. injection BT as <-.
  assert (C : column_present df f) by (apply has_col_iff; auto). exists df0, df. split; auto. split; auto. destruct (c_alg cl); cbn [finish] in FF.
  - binv FF. rename v into x', E into E'. injection FF as <-. split; [|discriminate]. intros r I. destruct (recal_exact _ _ _ _ _ _ A G L C E') as (R1 & _ & _).
    apply R1. unfold dedupe_trim, set_rules in I. cbn [rs_rules] in I. eapply kept_In; eauto.
  - destruct (recal_exact _ _ _ _ _ _ A G L C FF) as (R1 & R2 & _). auto.
Qed.
Print Assumptions C63_rule_statistics.

Lemma dedupe_sat e df f l rw : prints_apart df f -> good_frame df -> (forall r c, In r l -> In c (conds r) -> from_data df f c) ->
  (sat_ruleset (fcols df) rw l <-> sat_ruleset (fcols df) rw (remove_duplicates e l)).
Proof.
  intros PA [W D] FD. destruct (remove_duplicates_facts e l) as (S & C & _). split; intros (r & I & K).
  - destruct (C r I) as (x & Ix & E). exists x. split; auto. assert (Ix' : In x l) by (eapply sublist_In; eauto).
    apply conds_sat_iff; auto. destruct (equal_rules_same df x r E) as [_ SS].
    + intros c d Ic Id Es. apply PA; eauto.
    + rewrite SS. apply conds_sat_iff; auto.
  - exists r. split; auto. eapply sublist_In; eauto.
Qed.
(** The counts of the uncovered rows are those of the training rows no rule covers: proved for RIPPER above, and for IREP when no rule is trimmed
    off (max_total_conds not given) and different conditions print differently. *)
Theorem C63_irep_uncovered_partial : forall w cl X y cf pc names cnopt kw f vs ix cl' x p bt raw table,
  c_alg cl = IREP_ -> world_ok w -> training_input X y cf names f vs ix -> NoDup ix ->
  let h := hyper_of cl kw in
  (0 <= h_prune h)%Q -> (h_prune h <= 1)%Q -> nbins_fine (h_nbins h) -> (0 < h_alpha h)%Q -> h_max_total_conds h = None ->
  fit w cl X y cf pc names MNone cnopt kw = (cl', Ok tt) -> c_rs cl' = Some x -> c_pc cl' = Some p -> c_bt cl' = Some bt ->
  training_df X y f names = Ok raw -> transform bt raw = Ok table -> prints_apart table f ->
  uncovered_exact (h_alpha h) table f p x.
Proof.
  intros w cl X y cf pc names cnopt kw f vs ix cl' x p bt raw table EA WO T ND h P0 P1 NB A MT H RS PC BT RW TB PA.
  destruct (fit_trained _ _ _ _ _ _ _ _ _ _ _ _ _ _ WO T ND P0 P1 NB H) as (df & df0 & p1 & bt' & xi & x1 & x2 & xx & pp & nn & p' & n' & FT & G & L & HC & TD & TR & ST).
  destruct FT as [FP FI FTR FF FR FC FPC FB FS FA FH FCl FFe]. rewrite FR in RS. injection RS as <-. rewrite FPC in PC. injection PC as <-. rewrite FB in BT. injection BT as <-.
  rewrite TD in RW. injection RW as <-. rewrite TR in TB. injection TB as <-.
  assert (C : column_present df f) by (apply has_col_iff; auto). rewrite EA in FF, FTR. cbn [finish] in FF.
  binv FF. rename v into x', E into E'. injection FF as <-. destruct (recal_exact _ _ _ _ _ _ A G L C E') as (_ & (s & unc & E1 & K & S) & SC).
  cbn in FI. injection FI as <-. exists s, unc. split; [exact E1|]. split; auto. eapply picks_ext; [|exact K]. intros rw _. apply not_iff_compat.
  unfold dedupe_trim, set_rules. cbn [rs_rules]. fold h. rewrite MT. cbn [trim_conds]. apply dedupe_sat with (f := f); auto.
  intros r c I J. destruct (Forall2_In_l _ _ _ _ SC I) as (r1 & I1 & EC). unfold same_conds in EC. rewrite EC in J.
  eapply (train_from_data IREP_); eauto.
Qed.
Print Assumptions C63_irep_uncovered_partial.
(** Refuted for IREP with max_total_conds: recalibration happens before the trimming, so the uncovered counts are those of the longer ruleset.
    Here six training rows, one rule left (u=b) covering three; the stored uncovered counts are (1, 0), those of the data (1, 2). *)
Theorem C63_irep_trimmed_refuted : exists x raw table, c_rs trimmed = Some x /\ map rule_str (rs_rules x) = [$"[u=b]"] /\
  training_df (DRows people) (Some people_y) (s_ "t") (Some [s_ "u"; s_ "v"]) = Ok raw /\
  (exists bt, c_bt trimmed = Some bt /\ transform bt raw = Ok table) /\
  length (filter (fun rw => negb (conds_sat (fcols table) [c_ "u" "b"] rw)) (frows table)) = 3 /\
  option_map st_ns (rs_uncov x) = Some (1, 0).
Proof.
  eexists _, _, _. split; [vm_compute; reflexivity|]. split; [vm_compute; reflexivity|]. split; [vm_compute; reflexivity|].
  split; [eexists; split; vm_compute; reflexivity|]. split; vm_compute; reflexivity.
Qed.
Print Assumptions C63_irep_trimmed_refuted.

(** ** A concrete fitted classifier with a binned column: C01, C03, C46, C47, C55 and C63 apply to it *)
Definition people_clf : clf := fst (fit w1 irep_bins2 (DRows people) (Some people_y) None None (Some [s_ "u"; s_ "v"]) MNone true []).
Definition people_bt : bin_transformer := Eval vm_compute in match c_bt people_clf with Some b => b | None => bt_empty end.
Definition people_rules : ruleset := Eval vm_compute in match c_rs people_clf with Some x => x | None => Ruleset_ [] end.
(** new people: other numbers, another column order, an extra column and the class column *)
Definition newcomers : frame := mkframe [s_ "v"; s_ "extra"; s_ "t"; s_ "u"]
  [mkrow 7 [PInt 100; PNaN; PInt 1; s_ "a"]; mkrow 3 [PDec (-35) 1; PInt 2; PInt 0; s_ "b"]; mkrow 9 [PDec (-5) 1; PInt 2; PInt 0; s_ "zzz"]].
Definition newcomers_y : ydata := YList [PInt 1; PInt 0; PInt 0].
Lemma people_nodup : NoDup [10; 11; 12; 13; 14; 15]. Proof. repeat constructor; cbn; intuition discriminate. Qed.
Lemma people_ready : ready people_clf people_rules (s_ "t") (PInt 1) [s_ "v"].
Proof. constructor; try (vm_compute; reflexivity). vm_compute. discriminate. Qed.
Lemma people_sound : sound_bt people_bt.
Proof.
  destruct (fit_fitted w1 irep_bins2 (DRows people) (Some people_y) None None (Some [s_ "u"; s_ "v"]) MNone true [] people_clf) as (df & f & p & bt & xi & x1 & x2 & FT); [vm_compute; reflexivity|].
  assert (E := ft_bt _ _ _ _ _ _ _ _ _ _ _ _ _ _ _ _ _ _ FT). assert (E2 : c_bt people_clf = Some people_bt) by (vm_compute; reflexivity). rewrite E2 in E. injection E as ->.
  eapply fit_pre_sound; [exact w1_ok| |exact people_input|exact (ft_pre _ _ _ _ _ _ _ _ _ _ _ _ _ _ _ _ _ _ FT)]. cbn. lia.
Qed.
Lemma people_suits : suits people_clf people_rules (s_ "t") [s_ "v"] people_bt (DFrame newcomers) None newcomers.
Proof.
  constructor.
  - apply predict_plain; [auto|apply table_frame].
  - apply good_frameb_ok. reflexivity.
  - discriminate.
  - repeat constructor; cbn; intuition discriminate.
  - exact people_sound.
  - intros f b (bins & g & EB & I & Eg) _ _. left. injection EB as <-. destruct I as [I|[]]. injection I as <- <-.
    intros rw v Ir V. assert (V' : value_at (fcols newcomers) rw (s_ "v") v).
    { destruct V as (j & c & N & E & M). exists j, c. split; auto. split; auto. eapply py_eq_trans; [exact E|]. rewrite py_eq_sym. exact Eg. }
    apply value_at_cell in V'; [|destruct (good_frameb_ok newcomers eq_refl); auto].
    repeat (destruct Ir as [<-|Ir]; [vm_compute in V'; injection V' as <-; unfold number; eauto|]). destruct Ir.
  - intros f [<-|[]]. split; [apply has_col_iff; reflexivity|reflexivity].
  - intros f (r & c & I & J & ->). destruct I as [<-|[]]. destruct J as [<-|[]]. split; [apply has_col_iff; reflexivity|reflexivity].
Qed.
Example C01_classifier_nonvacuous : exists preds, clf_predict people_clf (DFrame newcomers) None = (people_clf, Ok preds) /\
  Forall2 (fun rw p => p = true <-> some_holds people_bt (fcols newcomers) rw (rs_rules people_rules)) (frows newcomers) preds.
Proof. eapply C01_classifier_predict; [exact people_ready|vm_compute; reflexivity|exact people_suits]. Qed.
Example C01_classifier_value : snd (clf_predict people_clf (DFrame newcomers) None) = Ok [true; false; true].
Proof. vm_compute. reflexivity. Qed.
Example C46_nonvacuous : exists q agree, clf_score score_accuracy people_clf (DFrame newcomers) newcomers_y = (people_clf, Ok (Some q)) /\
    picks (fun ry => some_holds people_bt (fcols newcomers) (fst ry) (rs_rules people_rules) <-> py_eq (snd ry) (PInt 1) = true) (combine (frows newcomers) (y_vals newcomers_y)) agree /\
    (q == qn (length agree) / qn (length (frows newcomers)))%Q.
Proof. eapply C46_score; [exact people_ready|vm_compute; reflexivity|exact people_suits|reflexivity]. Qed.
Example C46_value : snd (clf_score score_accuracy people_clf (DFrame newcomers) newcomers_y) = Ok (Some (2#3)).
Proof. vm_compute. reflexivity. Qed.
Example C47_nonvacuous : exists lines, clf_rule_stats w1 people_clf (DFrame newcomers) (Some newcomers_y) None None = (people_clf, Ok lines) /\ length lines = length (rs_rules people_rules) /\
    forall i r l, nth_error (rs_rules people_rules) i = Some r -> nth_error lines i = Some l ->
      line_of people_bt (PInt 1) newcomers (option_map y_vals (Some newcomers_y)) i r l /\ l_examples l = None.
Proof. eapply C47_rule_stats; [exact people_ready|vm_compute; reflexivity|exact people_suits|]. intros y' E. injection E as <-. reflexivity. Qed.
Example C47_value : snd (clf_rule_stats w1 people_clf (DFrame newcomers) (Some newcomers_y) None None)
  = Ok [mkline 0 ($"[v=>-1.0]") (2#3) 2 (Some (Some (1#2), Some (1#1), Some (4#6))) None].
Proof. vm_compute. reflexivity. Qed.
Example C55_nonvacuous : exists preds, clf_predict people_clf (DFrame newcomers) None = (people_clf, Ok preds) /\
    Forall2 (fun rw p => p = true <-> some_holds people_bt (fcols newcomers) rw (rs_rules people_rules)) (frows newcomers) preds.
Proof.
  eapply (C55_fitted_predict_partial w1 irep_bins2 (DRows people) (Some people_y) None None (Some [s_ "u"; s_ "v"]) MNone true []);
    [exact w1_ok|exact people_input|exact people_nodup|discriminate|discriminate|right; eexists; split; [reflexivity|discriminate]|vm_compute; reflexivity|vm_compute; reflexivity|vm_compute; reflexivity|vm_compute; reflexivity|..];
    try apply people_suits.
Qed.
Example C63_nonvacuous : map (fun r => option_map st_ns (rstats r)) (rs_rules people_rules) = [Some (0, 4)] /\ option_map st_ns (rs_uncov people_rules) = Some (2, 0) /\
  exists raw table, training_df (DRows people) (Some people_y) (s_ "t") (Some [s_ "u"; s_ "v"]) = Ok raw /\ transform people_bt raw = Ok table /\
    (forall r, In r (rs_rules people_rules) -> rule_exact 1 table (s_ "t") (PInt 1) r).
Proof.
  split; [reflexivity|]. split; [reflexivity|].
  edestruct (C63_rule_statistics w1 irep_bins2 (DRows people) (Some people_y) None None (Some [s_ "u"; s_ "v"]) MNone true []) as (raw & table & H1 & H2 & H3 & _);
    [exact w1_ok|exact people_input|exact people_nodup|discriminate|discriminate|right; eexists; split; [reflexivity|discriminate]|reflexivity|vm_compute; reflexivity|vm_compute; reflexivity|vm_compute; reflexivity|vm_compute; reflexivity|..].
  exists raw, table. split; [exact H1|]. split; [exact H2|exact H3].
Qed.

(** ** C28 for a whole fit *)
Definition consistent (table : frame) (f p : pyval) : Prop :=
  forall a b, In a (frows table) -> In b (frows table) -> positive_row (fcols table) f p a -> ~ positive_row (fcols table) f p b ->
    exists g v w, column_present table g /\ py_eq f g = false /\ value_at (fcols table) a g v /\ value_at (fcols table) b g w /\ py_eq v w = false.
Definition complete (table : frame) (f : pyval) : Prop :=
  forall rw j c, In rw (frows table) -> nth_error (fcols table) j = Some c -> py_eq c f = false -> nth_error (rcells rw) j <> Some PNaN.
Lemma complete_dropped df f x : good_frame df -> drop_col df f = Ok x -> complete df f -> no_missing x.
Proof.
  intros [W D] H CM rw v I Iv ->. unfold drop_col in H. destruct (col_pos (fcols df) f) as [j|] eqn:J; [|discriminate]. injection H as <-. cbn [frows] in I.
  apply in_map_iff in I. destruct I as (rw0 & <- & I). cbn [rcells] in Iv. apply In_nth_error in Iv. destruct Iv as (k & Nk).
  apply col_pos_spec in J. destruct J as (cj & C1 & C2).
  rewrite ClfFacts.remove_nth_nth in Nk.
  assert (Q : exists k', k' <> j /\ nth_error (rcells rw0) k' = Some PNaN) by (destruct (Nat.ltb_spec k j); [exists k|exists (S k)]; split; auto; lia).
  destruct Q as (k' & NE & N). assert (LT : k' < length (fcols df)) by (rewrite <- (W rw0 I); apply nth_error_Some; congruence).
  apply nth_error_Some in LT. destruct (nth_error (fcols df) k') as [c|] eqn:Ec; [|congruence].
  apply (CM rw0 k' c I Ec); auto. apply Bool.not_true_iff_false. intros E. apply NE. eapply D; eauto. eapply py_eq_trans; [exact E|]. rewrite py_eq_sym. exact C2.
Qed.

Theorem C28_fit_covers_positives : forall w cl X y cf pc names cnopt kw f vs ix cl' x p bt raw table,
  c_alg cl = IREP_ -> world_ok w -> training_input X y cf names f vs ix -> NoDup ix ->
  let h := hyper_of cl kw in
  (h_prune h == 0)%Q -> no_ruleset_limits h -> nbins_fine (h_nbins h) -> (0 < h_alpha h)%Q ->
  fit w cl X y cf pc names MNone cnopt kw = (cl', Ok tt) -> c_rs cl' = Some x -> c_pc cl' = Some p -> c_bt cl' = Some bt ->
  training_df X y f names = Ok raw -> transform bt raw = Ok table -> prints_apart table f ->
  forall rw, In rw (frows table) -> positive_row (fcols table) f p rw -> sat_ruleset (fcols table) rw (rs_rules x).
Proof.
  intros w cl X y cf pc names cnopt kw f vs ix cl' x p bt raw table EA WO T ND h PZ NL NB A H RS PC BT RW TB PA rw I PR.
  assert (P0 : (0 <= h_prune h)%Q) by lra. assert (P1 : (h_prune h <= 1)%Q) by lra.
  destruct (fit_trained _ _ _ _ _ _ _ _ _ _ _ _ _ _ WO T ND P0 P1 NB H) as (df & df0 & p1 & bt' & xi & x1 & x2 & xx & pp & nn & p' & n' & FT & G & L & HC & TD & TR & ST).
  destruct FT as [FP FI FTR FF FR FC FPC FB FS FA FH FCl FFe]. rewrite FR in RS. injection RS as <-. rewrite FPC in PC. injection PC as <-. rewrite FB in BT. injection BT as <-.
  rewrite TD in RW. injection RW as <-. rewrite TR in TB. injection TB as <-.
  assert (C : column_present df f) by (apply has_col_iff; auto). rewrite EA in FF, FTR. cbn [finish] in FF. cbn [train] in FTR.
  assert (MT : h_max_total_conds h = None) by apply NL.
  assert (Ip : In rw (frows pp)).
  { destruct (pos_neg_spec df f p1 G C) as (p2 & n2 & E & _ & _ & K & _). rewrite (s_split _ _ _ _ _ _ _ _ _ _ ST) in E. injection E as <- <-.
    eapply picks_In; eauto. }
  destruct (C28_irep_covers_positives _ _ _ _ _ _ _ _ _ _ _ _ _ ST PZ NL FTR rw Ip) as (r & Ir & Sr).
  binv FF. rename v into x', E into E'. injection FF as <-. destruct (recal_exact _ _ _ _ _ _ A G L C E') as (_ & _ & SC).
  unfold dedupe_trim, set_rules. cbn [rs_rules]. fold h. rewrite MT. cbn [trim_conds]. cbn in FI. injection FI as <-.
  apply (proj1 (dedupe_sat (e_hash (w_env w)) df f (rs_rules x') rw PA G ltac:(intros r' c I' J; destruct (Forall2_In_l _ _ _ _ SC I') as (r1 & I1 & EC); unfold same_conds in EC; rewrite EC in J; eapply (train_from_data IREP_); eauto))).
  assert (SC2 : Forall2 same_conds (rs_rules x1) (rs_rules x')) by (apply map_conds_forall; symmetry; apply map_conds_forall; auto).
    destruct (Forall2_In_l _ _ _ _ SC2 Ir) as (r' & I' & EC). exists r'. split; auto. eapply sat_conds_eq; [|exact Sr]. symmetry; exact EC.
Qed.
Print Assumptions C28_fit_covers_positives.

Theorem C28_fit_no_false_positives : forall w cl X y cf pc names kw f vs ix cl' x p bt raw table,
  c_alg cl = IREP_ -> world_ok w -> training_input X y cf names f vs ix -> NoDup ix ->
  let h := hyper_of cl kw in
  (h_prune h == 0)%Q -> no_rule_limits h -> nbins_fine (h_nbins h) -> (0 < h_alpha h)%Q ->
  fit w cl X y cf pc names MNone true kw = (cl', Ok tt) -> c_rs cl' = Some x -> c_pc cl' = Some p -> c_bt cl' = Some bt ->
  training_df X y f names = Ok raw -> transform bt raw = Ok table -> consistent table f p -> complete table f ->
  forall rw, In rw (frows table) -> ~ positive_row (fcols table) f p rw -> ~ sat_ruleset (fcols table) rw (rs_rules x).
Proof.
  intros w cl X y cf pc names kw f vs ix cl' x p bt raw table EA WO T ND h PZ NL NB A H RS PC BT RW TB CO NM rw I PR (r & Ir & Sr).
  assert (P0 : (0 <= h_prune h)%Q) by lra. assert (P1 : (h_prune h <= 1)%Q) by lra.
  destruct (fit_trained _ _ _ _ _ _ _ _ _ _ _ _ _ _ WO T ND P0 P1 NB H) as (df & df0 & p1 & bt' & xi & x1 & x2 & xx & pp & nn & p' & n' & FT & G & L & HC & TD & TR & ST).
  destruct FT as [FP FI FTR FF FR FC FPC FB FS FA FH FCl FFe]. rewrite FR in RS. injection RS as <-. rewrite FPC in PC. injection PC as <-. rewrite FB in BT. injection BT as <-.
  rewrite TD in RW. injection RW as <-. rewrite TR in TB. injection TB as <-.
  assert (C : column_present df f) by (apply has_col_iff; auto). destruct (finish_In _ _ _ _ _ _ _ _ _ FF Ir) as (r1 & I1 & EC).
  rewrite EA in FTR. cbn [train] in FTR. cbn in FI. injection FI as <-.
  assert (X0 := s_x _ _ _ _ _ _ _ _ _ _ ST). destruct (drop_col_values _ _ _ G X0) as [PRS VAL].
  destruct (drop_col_good _ _ _ G X0) as (Gx & LX & _).
  assert (LEN : length (frows xx) = length (frows df)) by (unfold labels in LX; apply (f_equal (@length nat)) in LX; rewrite !map_length in LX; auto).
  (* rows of the table without the class column, and back *)
  assert (TO : forall a, In a (frows df) -> exists ax, In ax (frows xx) /\ rlab ax = rlab a /\ forall g v, py_eq f g = false -> (value_at (fcols xx) ax g v <-> value_at (fcols df) a g v)).
  { intros a Ia. apply In_nth_error in Ia. destruct Ia as (i & Ni). destruct (nth_error (frows xx) i) as [ax|] eqn:Nx.
    - exists ax. split; [eapply nth_error_In; eauto|]. split; [|intros; eapply VAL; eauto].
      assert (Y := f_equal (fun l => nth_error l i) LX). unfold labels in Y. cbv beta in Y. rewrite !nth_error_map, Ni, Nx in Y. injection Y as Y. auto.
    - apply nth_error_None in Nx. assert (i < length (frows df)) by (apply nth_error_Some; congruence). lia. }
  assert (BACK : forall ax, In ax (frows xx) -> exists a, In a (frows df) /\ rlab a = rlab ax /\ forall g v, py_eq f g = false -> (value_at (fcols xx) ax g v <-> value_at (fcols df) a g v)).
  { intros ax Ia. apply In_nth_error in Ia. destruct Ia as (i & Ni). destruct (nth_error (frows df) i) as [a|] eqn:Nx.
    - exists a. split; [eapply nth_error_In; eauto|]. split; [|intros; eapply VAL; eauto].
      assert (Y := f_equal (fun l => nth_error l i) LX). unfold labels in Y. cbv beta in Y. rewrite !nth_error_map, Ni, Nx in Y. injection Y as Y. auto.
    - apply nth_error_None in Nx. assert (i < length (frows xx)) by (apply nth_error_Some; congruence). lia. }
  assert (COLX : forall g, column_present xx g -> py_eq f g = false) by (intros g Hg; apply PRS in Hg; apply Hg).
  assert (VX : forall ax g v, value_at (fcols xx) ax g v -> py_eq f g = false).
  { intros ax g v (j & c & N & E & _). apply COLX. exists c. split; auto. eapply nth_error_In; eauto. }
  destruct (pos_neg_spec df f p1 G C) as (p2 & n2 & E & _ & _ & KP & KN & _). rewrite (s_split _ _ _ _ _ _ _ _ _ _ ST) in E. injection E as <- <-.
  assert (UN : forall a b, In a (frows df) -> In b (frows df) -> rlab a = rlab b -> a = b).
  { intros a b Ia Ib Q. eapply (NoDup_map_inj rlab); eauto. }
  assert (In_ : In (rlab rw) (labels (frows nn))) by (apply in_map; eapply picks_In; eauto).
  refine (C28_irep_no_false_positives _ _ _ _ _ _ _ _ _ _ x1 ST PZ NL _ _ FTR (rlab rw) r1 In_ I1 _).
  - exact (complete_dropped df f xx G X0 NM).
  - intros ax bx Iax Ibx La Lb SF. destruct (BACK ax Iax) as (a & Ia & Ea & Va). destruct (BACK bx Ibx) as (b & Ib & Eb & Vb).
    destruct (CO a b) as (g & v & u & _ & NG & V1 & V2 & NE); auto.
    + apply in_map_iff in La. destruct La as (a' & E1 & I9). eapply picks_In in I9; [|exact KP]. destruct I9 as [I9 Q]. rewrite (UN a a'); auto. congruence.
    + apply in_map_iff in Lb. destruct Lb as (b' & E1 & I9). eapply picks_In in I9; [|exact KN]. destruct I9 as [I9 Q]. rewrite (UN b b'); auto. congruence.
    + apply Va in V1; auto. destruct (SF g v V1) as (u' & V3 & Q). apply Vb in V3; auto.
      assert (u = u'). { destruct G as [_ D]. rewrite value_at_cell in V2, V3 by auto. congruence. } subst u'. congruence.
  - destruct (TO rw I) as (ax & Iax & Eax & V). exists ax. split; auto. split; auto. rewrite EC in Sr || idtac.
    intros c Ic. assert (Ic' : In c (conds r)) by (rewrite EC; auto). destruct (Sr c Ic') as (u & V1 & Q). exists u. split; auto. apply V; auto.
    assert (FD := train_from_data IREP_ _ _ _ _ _ _ _ _ _ _ _ _ r1 c ST FTR I1 Ic). destruct FD as (_ & NF & _). rewrite py_eq_sym. exact NF.
Qed.
Print Assumptions C28_fit_no_false_positives.

(** checking the hypotheses on a concrete table *)
Definition data_conds (table : frame) (f : pyval) : list cond :=
  flat_map (fun rw => map (fun cv => mkcond (fst cv) (snd cv)) (filter (fun cv => negb (py_eq (fst cv) f)) (combine (fcols table) (rcells rw)))) (frows table).
Definition prints_apartb (table : frame) (f : pyval) : bool :=
  let l := data_conds table f in
  forallb (fun c => forallb (fun d => negb (str_eqb (cond_str c) (cond_str d)) || (py_eq (cfeat c) (cfeat d) && py_eq (cval c) (cval d))) l) l.
Lemma nth_combine {A B} (l : list A) (k : list B) i a b : nth_error l i = Some a -> nth_error k i = Some b -> In (a, b) (combine l k).
Proof. revert k i. induction l as [|x l IH]; intros [|y k] [|i] H K; try discriminate; cbn in *; [left; congruence|right; eauto]. Qed.
Lemma data_conds_In table f c : good_frame table -> from_data table f c -> In c (data_conds table f).
Proof.
  intros [W D] (I & N & rw & Ir & (j & c' & N1 & E & N2)). apply in_flat_map. exists rw. split; auto. apply In_nth_error in I. destruct I as (k & Nk).
  assert (j = k) by (eapply D; eauto). subst k. assert (c' = cfeat c) by congruence. subst c'. apply in_map_iff. exists (cfeat c, cval c). split; [destruct c; reflexivity|].
  apply filter_In. cbn [fst]. rewrite N. split; auto. eapply nth_combine; eauto.
Qed.
Lemma prints_apart_check table f : good_frame table -> prints_apartb table f = true -> prints_apart table f.
Proof.
  intros G H c d C D E. unfold prints_apartb in H. rewrite forallb_forall in H. specialize (H c (data_conds_In _ _ _ G C)). rewrite forallb_forall in H.
  specialize (H d (data_conds_In _ _ _ G D)). apply Bool.orb_true_iff in H. destruct H as [H|H].
  - rewrite E, str_eqb_refl in H. discriminate.
  - apply andb_prop in H. exact H.
Qed.
Definition irep_full : clf := construct IREP_ [(P_nbins, VOpt (Some 2%Z)); (P_prune, VQ 0)].
Definition full_clf : clf := fst (fit w1 irep_full (DRows people) (Some people_y) None None (Some [s_ "u"; s_ "v"]) MNone true []).
Definition people_table : frame := Eval vm_compute in
  match training_df (DRows people) (Some people_y) (s_ "t") (Some [s_ "u"; s_ "v"]) with
  | Ok raw => match transform people_bt raw with Ok t => t | Err _ => demo end | Err _ => demo end.
Lemma people_table_good : good_frame people_table. Proof. apply good_frameb_ok. reflexivity. Qed.
Definition consistentb (table : frame) (f p : pyval) : bool :=
  forallb (fun a => forallb (fun b => negb (cell_eq (fcols table) f p a) || cell_eq (fcols table) f p b ||
    existsb (fun g => negb (py_eq f g) && match cell (fcols table) g a, cell (fcols table) g b with Some v, Some w => negb (py_eq v w) | _, _ => false end) (fcols table))
    (frows table)) (frows table).
Lemma consistent_check table f p : good_frame table -> forallb (fun c => py_eq c c) (fcols table) = true -> consistentb table f p = true -> consistent table f p.
Proof.
  intros [W D] R H a b Ia Ib Pa Pb. unfold consistentb in H. rewrite forallb_forall in H. specialize (H a Ia). rewrite forallb_forall in H. specialize (H b Ib).
  rewrite forallb_forall in R. apply Bool.orb_true_iff in H. destruct H as [H|H]; [exfalso; apply Bool.orb_true_iff in H; destruct H as [H|H]|].
  - destruct Pa as (v & V & E). rewrite value_at_cell in V by auto. unfold cell_eq in H. rewrite V, E in H. discriminate.
  - apply Pb. unfold cell_eq in H. destruct (cell (fcols table) f b) as [v|] eqn:V; [|discriminate]. exists v. rewrite value_at_cell; auto.
  - apply existsb_exists in H. destruct H as (g & Ig & H). apply andb_prop in H. destruct H as [NG H].
    destruct (cell (fcols table) g a) as [v|] eqn:V; [|discriminate]. destruct (cell (fcols table) g b) as [w|] eqn:V2; [|discriminate].
    exists g, v, w. rewrite !value_at_cell by auto. split; [exists g; auto|]. split; [destruct (py_eq f g); auto; discriminate|]. split; auto. split; auto. destruct (py_eq v w); auto; discriminate.
Qed.
Lemma people_consistent : consistent people_table (s_ "t") (PInt 1).
Proof. apply consistent_check; [exact people_table_good|reflexivity|vm_compute; reflexivity]. Qed.
Lemma people_complete : complete people_table (s_ "t").
Proof.
  intros rw j c I N _ M. repeat (destruct I as [<-|I]; [destruct j as [|[|[|j]]]; cbn in M; try discriminate M; destruct j; discriminate M|]). destruct I.
Qed.
Example C28_fit_nonvacuous : exists x, c_rs full_clf = Some x /\ map rule_str (rs_rules x) = [$"[v=>-1.0]"] /\
  forall rw, In rw (frows people_table) -> (positive_row (fcols people_table) (s_ "t") (PInt 1) rw <-> sat_ruleset (fcols people_table) rw (rs_rules x)).
Proof.
  eexists. split; [vm_compute; reflexivity|]. split; [vm_compute; reflexivity|]. intros rw I. split.
  - revert rw I. eapply (C28_fit_covers_positives w1 irep_full (DRows people) (Some people_y) None None (Some [s_ "u"; s_ "v"]) true []);
    [reflexivity|exact w1_ok|exact people_input|exact people_nodup|reflexivity|repeat split; reflexivity|right; eexists; split; [reflexivity|discriminate]|reflexivity|vm_compute; reflexivity|vm_compute; reflexivity|vm_compute; reflexivity|vm_compute; reflexivity|vm_compute; reflexivity|vm_compute; reflexivity|].
    apply prints_apart_check; [exact people_table_good|vm_compute; reflexivity].
  - intros S. destruct (cell (fcols people_table) (s_ "t") rw) as [v|] eqn:E.
    + destruct (py_eq v (PInt 1)) eqn:Q; [exists v; split; auto; apply value_at_cell; auto; apply people_table_good|]. exfalso. revert S.
      eapply (C28_fit_no_false_positives w1 irep_full (DRows people) (Some people_y) None None (Some [s_ "u"; s_ "v"]) []);
      [reflexivity|exact w1_ok|exact people_input|exact people_nodup|reflexivity|repeat split; reflexivity|right; eexists; split; [reflexivity|discriminate]|reflexivity|vm_compute; reflexivity|vm_compute; reflexivity|vm_compute; reflexivity|vm_compute; reflexivity|vm_compute; reflexivity|vm_compute; reflexivity|exact people_consistent|exact people_complete|exact I|].
      intros (v' & V & Q'). apply value_at_cell in V; [|apply people_table_good]. congruence.
    + exfalso. repeat (destruct I as [<-|I]; [discriminate E|]). destruct I.
Qed.
