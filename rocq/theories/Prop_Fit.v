(** * Prop_Fit.v : whole calls of fit (C25, C26, C29-C32, C34) *)
From Verif Require Import ClfSpec FitRun Demo Prop_Irep Prop_Ripper Prop_Helpers Prop_Prep.
From Coq Require Import Lqa Qround.
Open Scope nat_scope.

(** the positive class is given, or the labels determine it *)
Definition class_known (vs : list pyval) (pc : option pyval) : Prop := pc <> None \/ binary vs \/ exists a, one_label vs a.
Lemma class_resolves vs pc : class_known vs pc -> exists p, get_pos_class vs pc = Ok p.
Proof.
  intros [N|[B|(a & O)]].
  - destruct pc as [p|]; [exists p; reflexivity|congruence].
  - destruct pc as [p|]; [exists p; reflexivity|]. destruct (pos_binary vs B) as (z & _ & _ & E). eauto.
  - destruct pc as [p|]; [exists p; reflexivity|]. destruct (pos_one vs a O) as (b & _ & _ & E). eauto.
Qed.
(** admissible outside world and hyperparameters *)
Definition world_ok (w : world) : Prop := env_ok (w_env w) /\ cuts_ok (w_cut w).

Lemma pre_total w cl X y cf pc names kw f vs ix : world_ok w -> nbins_ok (h_nbins (hyper_of cl kw)) -> training_input X y cf names f vs ix ->
  NoDup ix -> class_known vs pc ->
  exists df p bt, fit_pre w cl X y cf pc names kw = Ok (df, f, p, bt) /\ good_frame df /\ distinct_labels df /\ has_col df f = true /\ frows df <> [] /\
    column df f = vs /\ get_pos_class vs pc = Ok p.
Proof.
  intros [_ C] N T ND K. destruct (input_pre _ _ _ _ _ _ _ T) as (df0 & G & HC & EC & EL & NE & _ & PR).
  destruct (class_resolves vs pc K) as (p & P). destruct (fit_transform_ok (w_cut w) (fit_nbins cl kw) df0 f C N G HC) as (bt & df & E & G' & F & L & CL & _).
  exists df, p, bt. rewrite PR, P. cbn [bind]. rewrite E. cbn [bind]. split; auto. split; auto. split; [unfold distinct_labels; rewrite L, EL; auto|].
  split; [unfold has_col; rewrite F; exact HC|]. split; [|split; [congruence|reflexivity]].
  intros Z. apply (f_equal (@length row)) in Z. assert (LL : length (labels (frows df)) = length (labels (frows df0))) by (rewrite L; auto).
  unfold labels in LL. rewrite !map_length in LL. rewrite Z in LL. destruct (frows df0); [congruence|discriminate].
Qed.
Lemma from_data_present df f l : (forall r c, In r l -> In c (conds r) -> from_data df f c) -> features_present df l.
Proof.
  intros H g (r & c & I & J & E). destruct (H r c I J) as (K & _ & rw & Irw & V). exists (cfeat c). split; auto.
  destruct V as (j & d & Hd & Ed & _). rewrite E. eapply py_eq_refl_r; eauto.
Qed.

(** C25. IREP.fit on any well-formed training set with distinct index labels, 0 <= prune_size <= 1, alpha > 0 and any other limits,
    whatever the random choices: terminates and returns a fitted model. *)
Theorem C25_irep_fit_total : forall w cl X y cf pc names cnopt kw f vs ix,
  c_alg cl = IREP_ -> world_ok w -> training_input X y cf names f vs ix -> NoDup ix -> class_known vs pc ->
  let h := hyper_of cl kw in
  (0 <= h_prune h)%Q -> (h_prune h <= 1)%Q -> (0 < h_alpha h)%Q -> (h_nbins h = None \/ exists n, h_nbins h = Some n /\ (0 <= n)%Z) ->
  exists cl' x, fit w cl X y cf pc names MNone cnopt kw = (cl', Ok tt) /\ c_rs cl' = Some x.
Proof.
  intros w cl X y cf pc names cnopt kw f vs ix EA WO T ND K h P0 P1 A NB.
  assert (NB' : nbins_ok (h_nbins h)) by (destruct NB as [->|(n & -> & ?)]; cbn; auto).
  destruct (pre_total w cl X y cf pc names kw f vs ix WO NB' T ND K) as (df & p & bt & EP & G & L & HC & NE & _).
  assert (C : column_present df f) by (apply has_col_iff; auto). destruct WO as [Eo _].
  destruct (C25_irep_training_total (w_env w) h cnopt df f p (Ruleset_ []) Eo P0 P1 G L C) as (x1 & T1).
  destruct (setting_exists (w_env w) h df f p Eo P0 P1 G L C) as (x & pp & nn & p' & n' & ST).
  destruct (finish_total w IREP_ h df f p x1 A G L HC) as (x2 & F2).
  { apply (from_data_present df f). intros r c I J. eapply C26_irep_conditions_from_data; eauto. }
  destruct (cols_without_ok df f HC) as (feats & CW).
  destruct (fit_run w cl X y cf pc names MNone cnopt kw df f p bt (Ruleset_ []) (Ruleset_ []) x1 x2 feats) as (cl' & E & RS & _); auto.
  - rewrite EA. exact T1.
  - rewrite EA. exact F2.
  - eauto.
Qed.
Print Assumptions C25_irep_fit_total.

(** C34. The same for RIPPER.fit (default cn_optimize, 0 < prune_size), any number k of optimisation passes. *)
Theorem C34_ripper_fit_total : forall w cl X y cf pc names kw f vs ix,
  c_alg cl = RIPPER_ -> world_ok w -> training_input X y cf names f vs ix -> NoDup ix -> class_known vs pc ->
  let h := hyper_of cl kw in
  (0 < h_prune h)%Q -> (h_prune h <= 1)%Q -> (0 < h_alpha h)%Q -> (h_nbins h = None \/ exists n, h_nbins h = Some n /\ (0 <= n)%Z) ->
  exists cl' x, fit w cl X y cf pc names MNone true kw = (cl', Ok tt) /\ c_rs cl' = Some x.
Proof.
  intros w cl X y cf pc names kw f vs ix EA WO T ND K h P0 P1 A NB.
  assert (NB' : nbins_ok (h_nbins h)) by (destruct NB as [->|(n & -> & ?)]; cbn; auto).
  destruct (pre_total w cl X y cf pc names kw f vs ix WO NB' T ND K) as (df & p & bt & EP & G & L & HC & NE & _).
  assert (C : column_present df f) by (apply has_col_iff; auto). destruct WO as [Eo _].
  destruct (C34_ripper_training_total (w_env w) h df f p Eo P0 P1 G L C) as (x1 & T1).
  destruct (setting_exists (w_env w) h df f p Eo ltac:(lra) P1 G L C) as (x & pp & nn & p' & n' & ST).
  destruct (finish_total w RIPPER_ h df f p x1 A G L HC) as (x2 & F2).
  { apply (from_data_present df f). intros r c I J. eapply C26_ripper_conditions_from_data; eauto. }
  destruct (cols_without_ok df f HC) as (feats & CW).
  destruct (fit_run w cl X y cf pc names MNone true kw df f p bt (Ruleset_ []) (Ruleset_ []) x1 x2 feats) as (cl' & E & RS & _); auto.
  - rewrite EA. exact T1.
  - rewrite EA. exact F2.
  - eauto.
Qed.
Print Assumptions C34_ripper_fit_total.

(** C35. RIPPER.fit with prune_size=0 (None) and k=0. *)
Theorem C35_no_prune_fit_partial : forall w cl X y cf pc names kw f vs ix,
  c_alg cl = RIPPER_ -> world_ok w -> training_input X y cf names f vs ix -> NoDup ix -> class_known vs pc ->
  let h := hyper_of cl kw in
  h_prune h == 0 -> h_k h = 0 -> (0 < h_alpha h)%Q -> (h_nbins h = None \/ exists n, h_nbins h = Some n /\ (0 <= n)%Z) ->
  exists cl' x, fit w cl X y cf pc names MNone true kw = (cl', Ok tt) /\ c_rs cl' = Some x.
Proof.
  intros w cl X y cf pc names kw f vs ix EA WO T ND K h P K0 A NB. assert (P1 : (h_prune h <= 1)%Q) by lra.
  assert (NB' : nbins_ok (h_nbins h)) by (destruct NB as [->|(n & -> & ?)]; cbn; auto).
  destruct (pre_total w cl X y cf pc names kw f vs ix WO NB' T ND K) as (df & p & bt & EP & G & L & HC & NE & _).
  assert (C : column_present df f) by (apply has_col_iff; auto). destruct WO as [Eo _].
  destruct (C35_no_prune_partial (w_env w) h df f p Eo P K0 G L C) as (x1 & T1).
  destruct (setting_exists (w_env w) h df f p Eo ltac:(lra) P1 G L C) as (x & pp & nn & p' & n' & ST).
  destruct (finish_total w RIPPER_ h df f p x1 A G L HC) as (x2 & F2).
  { apply (from_data_present df f). intros r c I J. eapply C26_ripper_conditions_from_data; eauto. }
  destruct (cols_without_ok df f HC) as (feats & CW).
  destruct (fit_run w cl X y cf pc names MNone true kw df f p bt (Ruleset_ []) (Ruleset_ []) x1 x2 feats) as (cl' & E & RS & _); auto.
  - rewrite EA. exact T1.
  - rewrite EA. exact F2.
  - eauto.
Qed.
Print Assumptions C35_no_prune_fit_partial.

(** an admissible world (so the hypotheses can be met), and a non-trivial case: a numeric and a text column, labels in a Series *)
Definition low_of (vs : list pyval) : Z := fold_right Z.min 0%Z (map (fun v => match num_of v with Some x => Qfloor x | None => 0%Z end) vs).
Definition high_of (vs : list pyval) : Z := fold_right Z.max 0%Z (map (fun v => match num_of v with Some x => Qceiling x | None => 0%Z end) vs).
Definition cut0 (n : Z) (vs : list pyval) : list edge :=
  map (fun z => mkedge (qdec (10 * z) 1) (BNum (10 * z) 1)) [low_of vs - 1; low_of vs; high_of vs + 1]%Z.
Lemma low_le vs : (low_of vs <= 0)%Z /\ forall v x, In v vs -> num_of v = Some x -> (low_of vs <= Qfloor x)%Z.
Proof.
  unfold low_of. induction vs as [|a l [I1 I2]]; [split; [cbn; lia|contradiction]|]. cbn [map fold_right]. split; [lia|].
  intros v x [<-|I] E; [rewrite E; lia|]. specialize (I2 v x I E). lia.
Qed.
Lemma high_ge vs : (0 <= high_of vs)%Z /\ forall v x, In v vs -> num_of v = Some x -> (Qceiling x <= high_of vs)%Z.
Proof.
  unfold high_of. induction vs as [|a l [I1 I2]]; [split; [cbn; lia|contradiction]|]. cbn [map fold_right]. split; [lia|].
  intros v x [<-|I] E; [rewrite E; lia|]. specialize (I2 v x I E). lia.
Qed.
Lemma qdec_lt z u : (z < u)%Z -> (qdec (10 * z) 1 < inject_Z u)%Q /\ (inject_Z z < qdec (10 * u) 1)%Q /\ (qdec (10 * z) 1 < qdec (10 * u) 1)%Q.
Proof. intros H. unfold Qlt, qdec, inject_Z. cbn [Qnum Qden]. change (Z.pos (Z.to_pos (pow10z 1))) with 10%Z. lia. Qed.
Lemma cut0_ok : cuts_ok cut0.
Proof.
  intros n vs _ _ _. destruct (low_le vs) as [L1 L2]. destruct (high_ge vs) as [H1 H2]. unfold cut0. cbn [map]. split; [|split; [cbn; lia|]].
  - cbn [increasing map e_shown]. unfold finite, lower_than. cbn [bound_val]. repeat split; eauto; eexists _, _; (split; [reflexivity|]); (split; [reflexivity|]); apply qdec_lt; lia.
  - intros v x I E. specialize (L2 v x I E). specialize (H2 v x I E). eexists _, [_], _. split; [reflexivity|]. cbn [e_at].
    assert (A := Qfloor_le x). assert (B := Qle_ceiling x). split.
    + apply Qlt_le_weak. eapply Qlt_le_trans; [apply (proj1 (qdec_lt (low_of vs - 1) (low_of vs) ltac:(lia)))|]. eapply Qle_trans; [rewrite <- Zle_Qle; exact L2|exact A].
    + apply Qlt_le_weak. eapply Qle_lt_trans; [exact B|]. apply qdec_lt. lia.
Qed.
Definition w1 : world := mkworld env0 cut0 (fun n l => firstn n l).
Lemma w1_ok : world_ok w1. Proof. split; [exact env0_ok|exact cut0_ok]. Qed.
Definition people : list (list pyval) := [[s_ "a"; PInt (-1)]; [s_ "b"; PInt 4]; [s_ "a"; PDec 25 1]; [s_ "b"; PInt 3]; [s_ "a"; PInt 1]; [s_ "b"; PInt (-1)]].
Definition people_y : ydata := YSeries (Some (s_ "t")) [10; 11; 12; 13; 14; 15] [PInt 0; PInt 1; PInt 1; PInt 1; PInt 1; PInt 0].
Definition people_fr : frame := mkframe [s_ "u"; s_ "v"] (map (fun p => mkrow (fst p) (snd p)) (combine (seq 0 6) people)).
Lemma people_input : training_input (DRows people) (Some people_y) None (Some [s_ "u"; s_ "v"]) (s_ "t") (y_vals people_y) [10; 11; 12; 13; 14; 15].
Proof.
  apply (input_labels _ _ _ _ _ _ _ people_y people_fr); auto.
  - eapply names_series; reflexivity.
  - apply (table_rows_named people 2 people_fr); auto; [discriminate|]. intros r I. repeat (destruct I as [<-|I]; [reflexivity|]). destruct I.
  - apply good_frameb_ok. reflexivity.
  - discriminate.
  - reflexivity.
Qed.
Lemma people_binary : binary (y_vals people_y).
Proof.
  split; [|split]; [|exists (PInt 0); split; [left; auto|reflexivity]|exists (PInt 1); split; [right; left; auto|reflexivity]].
  intros v I. repeat (destruct I as [<-|I]; [first [left; reflexivity|right; reflexivity]|]). destruct I.
Qed.
Definition irep_bins2 : clf := construct IREP_ [(P_nbins, VOpt (Some 2%Z))].
Definition ripper_bins2 : clf := construct RIPPER_ [(P_nbins, VOpt (Some 2%Z))].
Example C25_C34_nonvacuous :
  (exists cl' x, fit w1 irep_bins2 (DRows people) (Some people_y) None None (Some [s_ "u"; s_ "v"]) MNone true [] = (cl', Ok tt) /\ c_rs cl' = Some x) /\
  (exists cl' x, fit w1 ripper_bins2 (DRows people) (Some people_y) None None (Some [s_ "u"; s_ "v"]) MNone true [] = (cl', Ok tt) /\ c_rs cl' = Some x).
Proof.
  assert (ND : NoDup [10; 11; 12; 13; 14; 15]) by (repeat constructor; cbn; intuition discriminate).
  split; [eapply C25_irep_fit_total|eapply C34_ripper_fit_total];
    try reflexivity; try exact w1_ok; try exact people_input; auto; try (right; left; exact people_binary); try discriminate; try reflexivity; try (right; eexists; split; [reflexivity|discriminate]).
Qed.
Example C25_C34_result :
  option_map (fun x => map rule_str (rs_rules x)) (c_rs (fst (fit w1 irep_bins2 (DRows people) (Some people_y) None None (Some [s_ "u"; s_ "v"]) MNone true []))) = Some [$"[v=>-1.0]"].
Proof. vm_compute. reflexivity. Qed.

(** ** what the fitted model looks like *)
Lemma pre_good w cl X y cf pc names kw f vs ix df f' p bt : world_ok w -> nbins_ok (h_nbins (hyper_of cl kw)) -> training_input X y cf names f vs ix -> NoDup ix ->
  fit_pre w cl X y cf pc names kw = Ok (df, f', p, bt) ->
  f' = f /\ good_frame df /\ distinct_labels df /\ has_col df f = true /\ frows df <> [] /\ column df f = vs /\
  exists df0, training_df X y f names = Ok df0 /\ transform bt df0 = Ok df.
Proof.
  intros [_ C] N T ND E. destruct (input_pre _ _ _ _ _ _ _ T) as (df0 & G & HC & EC & EL & NE & TD & PR).
  rewrite PR in E. binv E. rename v into p', E0 into P. destruct (fit_transform_ok (w_cut w) (fit_nbins cl kw) df0 f C N G HC) as (bt' & df' & E' & G' & F & L & CL & _).
  assert (E'' := E'). rewrite E' in E. cbn [bind] in E. injection E as <- <- _ <-. split; auto. split; auto.
  split; [unfold distinct_labels; rewrite L, EL; auto|]. split; [unfold has_col; rewrite F; exact HC|]. split.
  { intros Z. apply (f_equal (@length row)) in Z. assert (LL : length (labels (frows df')) = length (labels (frows df0))) by (rewrite L; auto).
    unfold labels in LL. rewrite !map_length in LL. rewrite Z in LL. destruct (frows df0); [congruence|discriminate]. }
  split; [congruence|]. exists df0. split; auto. unfold fit_transform in E''. binv E''. binv E''. injection E'' as <- <-. exact E0.
Qed.

(** C26. Every condition of a model fitted without initial model: a column of the training table other than the class column, with a value
    occurring in that column of the table the fitted bins make of the training data. *)
Theorem C26_fit_conditions_from_data : forall w cl X y cf pc names cnopt kw f vs ix cl' x r c,
  world_ok w -> training_input X y cf names f vs ix -> NoDup ix ->
  let h := hyper_of cl kw in
  (0 <= h_prune h)%Q -> (h_prune h <= 1)%Q -> (h_nbins h = None \/ exists n, h_nbins h = Some n /\ (0 <= n)%Z) ->
  fit w cl X y cf pc names MNone cnopt kw = (cl', Ok tt) -> c_rs cl' = Some x -> In r (rs_rules x) -> In c (conds r) ->
  exists bt table binned_table, c_bt cl' = Some bt /\ training_df X y f names = Ok table /\ transform bt table = Ok binned_table /\
    from_data binned_table f c.
Proof.
  intros w cl X y cf pc names cnopt kw f vs ix cl' x r c WO T ND h P0 P1 NB H RS I J.
  assert (NB' : nbins_ok (h_nbins h)) by (destruct NB as [->|(n & -> & ?)]; cbn; auto).
  destruct (fit_fitted _ _ _ _ _ _ _ _ _ _ _ H) as (df & f' & p & bt & xi & x1 & x2 & FT).
  destruct (pre_good _ _ _ _ _ _ _ _ _ _ _ _ _ _ _ WO NB' T ND (ft_pre _ _ _ _ _ _ _ _ _ _ _ _ _ _ _ _ _ _ FT)) as (-> & G & L & HC & NE & CV & df0 & TD & TR).
  assert (C : column_present df f) by (apply has_col_iff; auto). destruct WO as [Eo _].
  destruct (setting_exists (w_env w) h df f p Eo P0 P1 G L C) as (xx & pp & nn & p' & n' & ST).
  destruct FT as [FP FI FTR FF FR FC FPC FB FS FA FH FCl FFe]. rewrite FR in RS. injection RS as <-.
  exists bt, df0, df. split; auto. split; auto. split; auto.
  destruct (finish_In _ _ _ _ _ _ _ _ _ FF I) as (r1 & I1 & EC). rewrite EC in J. cbn in FI. injection FI as <-.
  destruct (c_alg cl); cbn [train] in FTR; [eapply C26_irep_conditions_from_data; eauto|eapply C26_ripper_conditions_from_data; eauto].
Qed.
Print Assumptions C26_fit_conditions_from_data.

(** C29. Fitting IREP from a model: the rules (as condition lists) are the initial model's rules without duplicates, in order, followed by new
    ones; with max_total_conds a leading part of that. *)
Definition duplicate_of (w : world) (a b : rule) : Prop := rule_hash (e_hash (w_env w)) a = rule_hash (e_hash (w_env w)) b /\ rule_eqb a b = true.
Lemma remove_dups_app H a : forall seen b, exists s', remove_dups_from H seen (a ++ b) = remove_dups_from H seen a ++ remove_dups_from H s' b.
Proof.
  induction a as [|r a IH]; intros seen b; cbn [app remove_dups_from]; [exists seen; reflexivity|]. destruct (in_set H seen r); [apply IH|].
  destruct (IH (seen ++ [r]) b) as (s' & E). exists s'. rewrite E. reflexivity.
Qed.
Lemma means_from m x : model_means m x -> frommodel m = Ok x.
Proof.
  destruct 1 as [|x R|x R| | |s l N P|x]; unfold frommodel; cbn [falsy]; auto.
  - rewrite R. reflexivity.
  - destruct (rs_rules x); [congruence|reflexivity].
  - destruct s; [congruence|]. cbn [asruleset] in P. rewrite P. reflexivity.
Qed.
Lemma from_means m x : frommodel m = Ok x -> model_means m x.
Proof.
  unfold frommodel. destruct m as [|y|s|o|l|]; cbn [falsy].
  - intros [= <-]. constructor.
  - destruct (rs_rules y) eqn:R; intros [= <-]; [constructor; auto|]. apply means_ruleset. congruence.
  - destruct s; [intros [= <-]; constructor|]. intros H. binv H. injection H as <-. constructor; [discriminate|]. exact E.
  - destruct o; intros [= <-]. constructor.
  - destruct l; intros [= <-]. constructor.
  - discriminate.
Qed.
Theorem C29_irep_fit_keeps_initial : forall w cl X y cf pc names init xi cnopt kw f vs ix cl' x,
  c_alg cl = IREP_ -> world_ok w -> training_input X y cf names f vs ix -> NoDup ix -> model_means init xi ->
  let h := hyper_of cl kw in
  (0 <= h_prune h)%Q -> (h_prune h <= 1)%Q -> (h_nbins h = None \/ exists n, h_nbins h = Some n /\ (0 <= n)%Z) ->
  fit w cl X y cf pc names init cnopt kw = (cl', Ok tt) -> c_rs cl' = Some x ->
  exists old new, first_occurrences (duplicate_of w) [] (rs_rules xi) old /\
    Spec.prefix (map conds (rs_rules x)) (map conds (old ++ new)) /\
    (h_max_total_conds h = None -> map conds (rs_rules x) = map conds (old ++ new)).
Proof.
  intros w cl X y cf pc names init xi cnopt kw f vs ix cl' x EA WO T ND FM h P0 P1 NB H RS. apply means_from in FM.
  assert (NB' : nbins_ok (h_nbins h)) by (destruct NB as [->|(n & -> & ?)]; cbn; auto).
  destruct (fit_fitted _ _ _ _ _ _ _ _ _ _ _ H) as (df & f' & p & bt & xi' & x1 & x2 & FT).
  destruct (pre_good _ _ _ _ _ _ _ _ _ _ _ _ _ _ _ WO NB' T ND (ft_pre _ _ _ _ _ _ _ _ _ _ _ _ _ _ _ _ _ _ FT)) as (-> & G & L & HC & NE & CV & _).
  assert (C : column_present df f) by (apply has_col_iff; auto). destruct WO as [Eo _].
  destruct (setting_exists (w_env w) h df f p Eo P0 P1 G L C) as (xx & pp & nn & p' & n' & ST).
  destruct FT as [FP FI FTR FF FR FC FPC FB FS FA FH FCl FFe]. rewrite FR in RS. injection RS as <-.
  rewrite FM in FI. injection FI as <-. rewrite EA in FTR, FF. cbn [train] in FTR.
  destruct (C29_irep_keeps_initial_rules _ _ _ _ _ _ _ _ _ _ _ _ _ ST FTR) as (new & E).
  destruct (remove_dups_app (e_hash (w_env w)) (rs_rules xi) [] new) as (s' & ED).
  exists (remove_duplicates (e_hash (w_env w)) (rs_rules xi)), (remove_dups_from (e_hash (w_env w)) s' new).
  split; [apply remove_duplicates_first|]. apply finish_conds in FF. apply map_conds_forall in FF. unfold kept in FF.
  unfold remove_duplicates in *. rewrite E, ED in FF. split.
  - destruct (trim_conds_prefix (h_max_total_conds h) (remove_dups_from (e_hash (w_env w)) [] (rs_rules xi) ++ remove_dups_from (e_hash (w_env w)) s' new)) as (s & ES).
    exists (map conds s). rewrite FF. rewrite ES at 1. rewrite map_app. reflexivity.
  - intros M. fold h in FF. rewrite M in FF. exact FF.
Qed.
Print Assumptions C29_irep_fit_keeps_initial.

(** C30. max_rules, for both learners, whatever initial model. *)
Theorem C30_fit_max_rules : forall w cl X y cf pc names init xi cnopt kw f vs ix cl' x m,
  world_ok w -> training_input X y cf names f vs ix -> NoDup ix -> model_means init xi ->
  let h := hyper_of cl kw in
  (0 <= h_prune h)%Q -> (h_prune h <= 1)%Q -> (h_nbins h = None \/ exists n, h_nbins h = Some n /\ (0 <= n)%Z) ->
  h_max_rules h = Some m ->
  fit w cl X y cf pc names init cnopt kw = (cl', Ok tt) -> c_rs cl' = Some x ->
  (Z.of_nat (length (rs_rules x)) <= Z.max m (Z.of_nat (length (rs_rules xi))))%Z.
Proof.
  intros w cl X y cf pc names init xi cnopt kw f vs ix cl' x m WO T ND FM h P0 P1 NB M H RS. apply means_from in FM.
  assert (NB' : nbins_ok (h_nbins h)) by (destruct NB as [->|(n & -> & ?)]; cbn; auto).
  destruct (fit_fitted _ _ _ _ _ _ _ _ _ _ _ H) as (df & f' & p & bt & xi' & x1 & x2 & FT).
  destruct (pre_good _ _ _ _ _ _ _ _ _ _ _ _ _ _ _ WO NB' T ND (ft_pre _ _ _ _ _ _ _ _ _ _ _ _ _ _ _ _ _ _ FT)) as (-> & G & L & HC & NE & CV & _).
  assert (C : column_present df f) by (apply has_col_iff; auto). destruct WO as [Eo _].
  destruct (setting_exists (w_env w) h df f p Eo P0 P1 G L C) as (xx & pp & nn & p' & n' & ST).
  destruct FT as [FP FI FTR FF FR FC FPC FB FS FA FH FCl FFe]. rewrite FR in RS. injection RS as <-.
  rewrite FM in FI. injection FI as <-.
  assert (K : (Z.of_nat (length (rs_rules x1)) <= Z.max m (Z.of_nat (length (rs_rules xi))))%Z).
  { destruct (c_alg cl); cbn [train] in FTR; [eapply C30_irep_max_rules; eauto|eapply C30_ripper_max_rules; eauto]. }
  apply finish_conds in FF. apply Forall2_length in FF. assert (S := sublist_length _ _ (kept_sublist w (hyper_of cl kw) (rs_rules x1))).
  rewrite FF. lia.
Qed.
Print Assumptions C30_fit_max_rules.

(** C31. max_rule_conds: IREP (no initial model). RIPPER: without optimisation passes, see C31_ripper_max_rule_conds_partial / _refuted. *)
Theorem C31_irep_fit_max_rule_conds : forall w cl X y cf pc names cnopt kw f vs ix cl' x m r,
  c_alg cl = IREP_ -> world_ok w -> training_input X y cf names f vs ix -> NoDup ix ->
  let h := hyper_of cl kw in
  (0 <= h_prune h)%Q -> (h_prune h <= 1)%Q -> (h_nbins h = None \/ exists n, h_nbins h = Some n /\ (0 <= n)%Z) ->
  h_max_rule_conds h = Some m -> (0 <= m)%Z ->
  fit w cl X y cf pc names MNone cnopt kw = (cl', Ok tt) -> c_rs cl' = Some x -> In r (rs_rules x) ->
  (Z.of_nat (length (conds r)) <= m)%Z.
Proof.
  intros w cl X y cf pc names cnopt kw f vs ix cl' x m r EA WO T ND h P0 P1 NB M M0 H RS I.
  assert (NB' : nbins_ok (h_nbins h)) by (destruct NB as [->|(n & -> & ?)]; cbn; auto).
  destruct (fit_fitted _ _ _ _ _ _ _ _ _ _ _ H) as (df & f' & p & bt & xi' & x1 & x2 & FT).
  destruct (pre_good _ _ _ _ _ _ _ _ _ _ _ _ _ _ _ WO NB' T ND (ft_pre _ _ _ _ _ _ _ _ _ _ _ _ _ _ _ _ _ _ FT)) as (-> & G & L & HC & NE & CV & _).
  assert (C : column_present df f) by (apply has_col_iff; auto). destruct WO as [Eo _].
  destruct (setting_exists (w_env w) h df f p Eo P0 P1 G L C) as (xx & pp & nn & p' & n' & ST).
  destruct FT as [FP FI FTR FF FR FC FPC FB FS FA FH FCl FFe]. rewrite FR in RS. injection RS as <-.
  cbn in FI. injection FI as <-. rewrite EA in FTR. cbn [train] in FTR.
  destruct (C31_irep_max_rule_conds _ _ _ _ _ _ _ _ _ _ _ _ _ _ ST M M0 FTR) as (new & E & B). cbn in E.
  destruct (finish_In _ _ _ _ _ _ _ _ _ FF I) as (r1 & I1 & EC). rewrite EC. apply B. rewrite <- E. exact I1.
Qed.
Print Assumptions C31_irep_fit_max_rule_conds.

(** C32. max_total_conds = m >= 0: at most m conditions in total after fit, for both learners, any data, any initial model. *)
Theorem C32_fit_max_total_conds : forall w cl X y cf pc names init cnopt kw cl' x m,
  fit w cl X y cf pc names init cnopt kw = (cl', Ok tt) -> c_rs cl' = Some x ->
  h_max_total_conds (c_hyper cl') = Some m -> (0 <= m)%Z ->
  (Z.of_nat (list_sum (map (fun r => length (conds r)) (rs_rules x))) <= m)%Z.
Proof.
  intros w cl X y cf pc names init cnopt kw cl' x m H RS M M0.
  destruct (fit_fitted _ _ _ _ _ _ _ _ _ _ _ H) as (df & f' & p & bt & xi' & x1 & x2 & FT).
  destruct FT as [FP FI FTR FF FR FC FPC FB FS FA FH FCl FFe]. rewrite FR in RS. injection RS as <-.
  apply finish_conds in FF. assert (K := count_conds_same _ _ FF). change (list_sum _) with (count_conds (rs_rules x2)). rewrite K. unfold kept.
  rewrite FH in M. rewrite M. apply trim_conds_spec; auto.
Qed.
Print Assumptions C32_fit_max_total_conds.
Definition fit_people (a : alg) (hy : list (param * pvalue)) (init : model_arg) : option (list str) * res unit :=
  let r := fit w1 (construct a ((P_nbins, VOpt (Some 2%Z)) :: hy)) (DRows people) (Some people_y) None None (Some [s_ "u"; s_ "v"]) init true [] in
  (option_map (fun x => map rule_str (rs_rules x)) (c_rs (fst r)), snd r).
Definition some_rules : ruleset := Ruleset_ [Rule_ [c_ "u" "b"; c_ "v" ">-1.0"]; Rule_ [c_ "v" ">-1.0"; c_ "u" "b"]; Rule_ [c_ "u" "z"]].
Example C29_C32_nonvacuous :
  fit_people IREP_ [] (MRuleset some_rules) = (Some [$"[u=b^v=>-1.0]"; $"[u=z]"; $"[v=>-1.0]"], Ok tt) /\
  fit_people IREP_ [(P_max_total_conds, VOpt (Some 3%Z))] (MRuleset some_rules) = (Some [$"[u=b^v=>-1.0]"; $"[u=z]"], Ok tt) /\
  fit_people RIPPER_ [(P_max_total_conds, VOpt (Some 1%Z))] (MRuleset some_rules) = (Some [], Ok tt) /\
  fit_people IREP_ [(P_max_rules, VOpt (Some 1%Z)); (P_max_rule_conds, VOpt (Some 1%Z))] MNone = (Some [$"[v=>-1.0]"], Ok tt).
Proof. repeat split; vm_compute; reflexivity. Qed.
