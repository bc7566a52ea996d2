(** * Prop_Relabel.v : C80 -- only which rows are positive matters, not how the classes are encoded or what the class column is called *)
From Verif Require Import RelabelSpec Relabel CallForm TrainSpec TrainView ClfFacts FitFacts FitRun PrepFacts Prop_Fit Prop_FitModel Prop_Helpers Prop_Call Prop_Train Demo.
Open Scope nat_scope.

Lemma positives_map p p' vs vs' : same_positives p p' vs vs' -> map (fun v => py_eq v p) vs = map (fun v => py_eq v p') vs'.
Proof.
  intros [L H]. revert vs' L H. induction vs as [|v vs IH]; intros [|v' vs'] L H; try discriminate; [reflexivity|]. cbn [map]. f_equal.
  - specialize (H 0 v v' eq_refl eq_refl). apply Bool.eq_true_iff_eq. exact H.
  - apply IH; [cbn in L; lia|]. intros i. apply (H (S i)).
Qed.

(** C80. Two calls of fit without an initial model, with the same features and index, whose labels -- in whatever encoding, with two or more
    classes, under whatever class column name, given in whatever form -- name the same rows as positive: if the one succeeds so does
    the other, and the resulting classifiers differ only in the class name and positive class they record. *)
Theorem C80_only_positives_matter : forall w cl X y cf names X' y' cf' names' f f' p p' vs vs' ix fr fr' cnopt kw c1,
  world_ok w -> training_input X y cf names f vs ix -> training_input X' y' cf' names' f' vs' ix -> NoDup ix ->
  table_of X names fr -> table_of X' names' fr' -> same_feature_data f f' fr fr' -> same_positives p p' vs vs' ->
  let h := hyper_of cl kw in
  (0 <= h_prune h)%Q -> (h_prune h <= 1)%Q -> (h_nbins h = None \/ exists n, h_nbins h = Some n /\ (0 <= n)%Z) ->
  fit w cl X y cf (Some p) names MNone cnopt kw = (c1, Ok tt) ->
  fit w cl X' y' cf' (Some p') names' MNone cnopt kw =
    (mkclf (c_alg c1) (c_hyper c1) (c_rs c1) (Some f') (Some p') (c_bt c1) (c_sel c1) (c_feats c1) (c_classes c1), Ok tt).
Proof.
  intros w cl X y cf names X' y' cf' names' f f' p p' vs vs' ix fr fr' cnopt kw c1 WO T T' ND TB TB' (FA & FB) SP h P0 P1 NB H.
  destruct (fit_fitted _ _ _ _ _ _ _ _ _ _ _ H) as (df & f1 & p1 & bt & xi & x1 & x2 & FT).
  destruct (pre_good _ _ _ _ _ _ _ _ _ _ _ _ _ _ _ WO (nbins_fine_ok _ NB) T ND (ft_pre _ _ _ _ _ _ _ _ _ _ _ _ _ _ _ _ _ _ FT)) as (-> & G & LB & HC & NE & CV & _).
  destruct FT as [FP FI FTR FF FR FC FPC FBT FS FAL FH FCl (feats & CW & FFe)]. cbn [frommodel] in FI. injection FI as <-.
  destruct (input_pre _ _ _ _ _ _ _ T) as (a & Ga & Ha & Ca & La & NEa & TDa & Pa). destruct (input_pre _ _ _ _ _ _ _ T') as (b & Gb & Hb & Cb & Lb & NEb & TDb & Pb).
  rewrite Pa in FP. cbn [get_pos_class bind] in FP. binv FP. destruct v as [bt0 df0]. injection FP as -> <- ->. rename E into EA.
  assert (RL : relabel f f' p p' a b).
  { constructor; auto.
    - exists (features_of f fr ix). split; [apply (raw_drop _ _ _ _ _ _ _ _ _ T TB TDa)|]. rewrite (raw_drop _ _ _ _ _ _ _ _ _ T' TB' TDb). unfold features_of. rewrite FA, FB. reflexivity.
    - rewrite Ca, Cb. apply positives_map; auto. }
  pose proof (rl_fit_transform f f' p p' (w_cut w) (fit_nbins cl kw) a b RL) as R. rewrite EA in R.
  destruct (fit_transform (w_cut w) (fit_nbins cl kw) b [f']) as [[bt' df']|] eqn:EB; cbn [lfrel2] in R; [|contradiction]. destruct R as [<- RL'].
  assert (PB : fit_pre w cl X' y' cf' (Some p') names' kw = Ok (df', f', p', bt)) by (rewrite Pb; cbn [get_pos_class bind]; rewrite EB; reflexivity).
  destruct (rl_has_f _ _ _ _ _ _ RL') as [_ HC'].
  assert (NE' : frows df' <> []) by (pose proof (rl_len _ _ _ _ _ _ RL') as LL; destruct (frows df), (frows df'); try congruence; discriminate).
  assert (MN : forall r c, In r (rs_rules x1) -> In c (conds r) -> py_eq f (cfeat c) = false /\ py_eq f' (cfeat c) = false).
  { destruct (setting_exists (w_env w) h df f p (proj1 WO) P0 P1 G LB) as (xx & pp & nn & q & n' & ST); [apply has_col_iff; auto|].
    intros r c I J. destruct (train_from_data _ _ _ _ _ _ _ _ _ _ _ _ _ _ _ ST FTR I J) as (D1 & D2 & _). rewrite py_eq_sym in D2. split; auto.
    apply Bool.not_true_iff_false. intros K. assert (Q := py_eq_refl_r _ _ K). assert (HA : has_col df (cfeat c) = true) by (apply has_col_iff; exists (cfeat c); auto).
    rewrite (rl_feature _ _ _ _ _ _ RL' _ HA D2) in K. discriminate. }
  assert (FI' : finish w (c_alg cl) h df' f' p' x1 = Ok x2).
  { rewrite <- FF. symmetry. unfold finish. destruct (c_alg cl).
    - rewrite (rl_recal _ _ _ _ _ _ _ _ RL' MN). reflexivity.
    - apply (rl_recal _ _ _ _ _ _ _ _ RL'). intros r c I J. unfold dedupe_trim, set_rules in I. cbn [rs_rules] in I. apply (MN r c); auto. eapply kept_In; eauto. }
  rewrite (rl_train _ _ _ _ _ _ _ _ _ _ _ RL') in FTR. rewrite (rl_cols _ _ _ _ _ _ RL') in CW.
  destruct (fit_run w cl X' y' cf' (Some p') names' MNone cnopt kw df' f' p' bt (Ruleset_ []) (Ruleset_ []) x1 x2 feats eq_refl PB eq_refl FTR FI' CW NE' HC') as (c2 & H2 & E1 & E2 & E3 & E4 & E5 & E6 & E7 & E8).
  destruct (fit_fitted _ _ _ _ _ _ _ _ _ _ _ H2) as (? & ? & ? & ? & ? & ? & ? & FT2). assert (E9 := ft_classes _ _ _ _ _ _ _ _ _ _ _ _ _ _ _ _ _ _ FT2).
  rewrite H2. f_equal. destruct c2 as [q1 q2 q3 q4 q5 q6 q7 q8 q9]. cbn [c_alg c_hyper c_rs c_cf c_pc c_bt c_sel c_feats c_classes] in E1, E2, E3, E4, E5, E6, E7, E8, E9 |- *. f_equal; congruence.
Qed.

(** and then every prediction is the same, on any data that contain neither class column *)
Lemma frame_relabel c f f' p p' bt X : c_cf c = Some f -> c_pc c = Some p -> has_col (to_df X) f = false -> has_col (to_df X) f' = false ->
  prediction_frame (mkclf (c_alg c) (c_hyper c) (c_rs c) (Some f') (Some p') (c_bt c) (c_sel c) (c_feats c) (c_classes c)) bt X None = prediction_frame c bt X None.
Proof.
  intros A B N N'. unfold prediction_frame. cbn [c_cf c_pc c_sel c_feats]. rewrite A, B. cbn [attr bind]. unfold preprocess_prediction, check_input, prediction_df. rewrite N, N'.
  destruct (data_len X =? 0); reflexivity.
Qed.
Theorem C80_same_predictions : forall w cl X y cf names X' y' cf' names' f f' p p' vs vs' ix fr fr' cnopt kw c1 c2 X2 fr2,
  world_ok w -> training_input X y cf names f vs ix -> training_input X' y' cf' names' f' vs' ix -> NoDup ix ->
  table_of X names fr -> table_of X' names' fr' -> same_feature_data f f' fr fr' -> same_positives p p' vs vs' ->
  let h := hyper_of cl kw in
  (0 <= h_prune h)%Q -> (h_prune h <= 1)%Q -> (h_nbins h = None \/ exists n, h_nbins h = Some n /\ (0 <= n)%Z) ->
  fit w cl X y cf (Some p) names MNone cnopt kw = (c1, Ok tt) -> fit w cl X' y' cf' (Some p') names' MNone cnopt kw = (c2, Ok tt) ->
  table_of X2 None fr2 -> ~ column_present fr2 f -> ~ column_present fr2 f' ->
  snd (clf_predict c2 X2 None) = snd (clf_predict c1 X2 None) /\
  snd (clf_predict_reasons c2 X2 None) = snd (clf_predict_reasons c1 X2 None) /\
  snd (clf_predict_proba c2 X2 None) = snd (clf_predict_proba c1 X2 None).
Proof.
  intros w cl X y cf names X' y' cf' names' f f' p p' vs vs' ix fr fr' cnopt kw c1 c2 X2 fr2 WO T T' ND TB TB' FD SP h P0 P1 NB H1 H2 T2 N1 N2.
  rewrite (C80_only_positives_matter _ _ _ _ _ _ _ _ _ _ _ _ _ _ _ _ _ _ _ _ _ _ WO T T' ND TB TB' FD SP P0 P1 NB H1) in H2. injection H2 as <-.
  destruct (fit_fitted _ _ _ _ _ _ _ _ _ _ _ H1) as (df & f1 & p1 & bt & xi & x1 & x2 & FT).
  destruct (pre_good _ _ _ _ _ _ _ _ _ _ _ _ _ _ _ WO (nbins_fine_ok _ NB) T ND (ft_pre _ _ _ _ _ _ _ _ _ _ _ _ _ _ _ _ _ _ FT)) as (-> & _).
  assert (TD := table_rename _ _ _ T2). cbn [rename] in TD. injection TD as TD.
  assert (M1 : has_col (to_df X2) f = false) by (rewrite TD; apply Bool.not_true_iff_false; intros K; apply N1; apply has_col_iff; auto).
  assert (M2 : has_col (to_df X2) f' = false) by (rewrite TD; apply Bool.not_true_iff_false; intros K; apply N2; apply has_col_iff; auto).
  destruct FT as [FP FI FTR FF FR FC FPC FBT FS FAL FH FCl _].
  assert (E := fun bt => frame_relabel c1 f f' p1 p' bt X2 FC FPC M1 M2).
  clear H1. destruct c1 as [q1 q2 q3 q4 q5 q6 q7 q8 q9]. cbn [c_alg c_hyper c_rs c_cf c_pc c_bt c_sel c_feats c_classes] in E, FR, FC, FPC, FBT |- *. subst q3 q4 q5 q6.
  unfold clf_predict, clf_predict_reasons, clf_predict_proba, ensure_bt. cbn [c_rs c_bt c_pc attr bind]. rewrite E.
  split; [reflexivity|]. split; [reflexivity|]. destruct (prediction_frame _ bt X2 None); reflexivity.
Qed.

(** The example table with labels 0/1 in a Series "t", against three text labels in a first column "answer" of a DataFrame *)
Definition answers : list pyval := [s_ "no"; s_ "yes"; s_ "yes"; s_ "yes"; s_ "yes"; s_ "maybe"].
Definition answers_df : frame :=
  mkframe [s_ "answer"; s_ "u"; s_ "v"] (map (fun q => mkrow (fst (fst q)) (snd (fst q) :: snd q)) (combine (combine [10; 11; 12; 13; 14; 15] answers) people)).
Lemma answers_input : training_input (DFrame answers_df) None (Some (s_ "answer")) None (s_ "answer") answers [10; 11; 12; 13; 14; 15].
Proof.
  apply (input_column _ _ _ _ _ _ _ answers_df); [reflexivity|reflexivity|apply table_frame|apply good_frameb_ok; vm_compute; reflexivity|discriminate|exists (s_ "answer"); split; [left; reflexivity|reflexivity]|split; [reflexivity|]|reflexivity].
  intros i rw v H1 H2. do 6 (destruct i as [|i]; [injection H1 as <-; injection H2 as <-; exists 0, (s_ "answer"); repeat split; reflexivity|]). destruct i; discriminate.
Qed.
Lemma answers_same : same_feature_data (s_ "t") (s_ "answer") people_fr answers_df /\ same_positives (PInt 1) (s_ "yes") (y_vals people_y) answers.
Proof.
  split; [split; vm_compute; reflexivity|]. split; [reflexivity|]. intros i v v' H1 H2.
  do 6 (destruct i as [|i]; [injection H1 as <-; injection H2 as <-; vm_compute; split; auto|]). destruct i; discriminate.
Qed.
Lemma answers_fit a c1 : h_nbins (c_hyper a) = Some 2%Z -> (h_prune (c_hyper a) == 33 # 100)%Q ->
  fit w1 a (DRows people) (Some people_y) None (Some (PInt 1)) (Some [s_ "u"; s_ "v"]) MNone true [] = (c1, Ok tt) ->
  fit w1 a (DFrame answers_df) None (Some (s_ "answer")) (Some (s_ "yes")) None MNone true [] =
    (mkclf (c_alg c1) (c_hyper c1) (c_rs c1) (Some (s_ "answer")) (Some (s_ "yes")) (c_bt c1) (c_sel c1) (c_feats c1) (c_classes c1), Ok tt).
Proof.
  intros NB PR E1. destruct answers_same as [FD SP]. assert (EH : hyper_of a [] = c_hyper a) by (destruct a as [q1 [] ? ? ? ? ? ? ?]; reflexivity).
  refine (C80_only_positives_matter w1 a (DRows people) (Some people_y) None (Some [s_ "u"; s_ "v"]) (DFrame answers_df) None (Some (s_ "answer")) None (s_ "t") (s_ "answer") (PInt 1) (s_ "yes")
    (y_vals people_y) answers [10; 11; 12; 13; 14; 15] people_fr answers_df true [] c1 w1_ok people_input answers_input people_nodup people_fr_table (table_frame _) FD SP _ _ _ E1); rewrite EH.
  - rewrite PR. discriminate.
  - rewrite PR. discriminate.
  - right. exists 2%Z. split; [exact NB|discriminate].
Qed.
Definition one_clf (a : clf) : clf := fst (fit w1 a (DRows people) (Some people_y) None (Some (PInt 1)) (Some [s_ "u"; s_ "v"]) MNone true []).
Definition yes_clf (a : clf) : clf := fst (fit w1 a (DFrame answers_df) None (Some (s_ "answer")) (Some (s_ "yes")) None MNone true []).
Definition shown (c : clf) : option (list str) := option_map (fun x => map rule_str (rs_rules x)) (c_rs c).
Example C80_nonvacuous :
  (c_rs (yes_clf irep_bins2) = c_rs (one_clf irep_bins2) /\ shown (one_clf irep_bins2) = Some [$"[v=>-1.0]"]) /\
  (c_rs (yes_clf ripper_bins2) = c_rs (one_clf ripper_bins2) /\ shown (one_clf ripper_bins2) = Some [$"[v=>-1.0]"]).
Proof.
  assert (K : forall a c, h_nbins (c_hyper a) = Some 2%Z -> (h_prune (c_hyper a) == 33 # 100)%Q ->
    fit w1 a (DRows people) (Some people_y) None (Some (PInt 1)) (Some [s_ "u"; s_ "v"]) MNone true [] = (c, Ok tt) -> c_rs (yes_clf a) = c_rs (one_clf a)).
  { intros a c A1 A2 E1. unfold yes_clf, one_clf. rewrite (answers_fit a c A1 A2 E1), E1. reflexivity. }
  split; (split; [eapply K; [reflexivity|reflexivity|vm_compute; reflexivity]|vm_compute; reflexivity]).
Qed.
Print Assumptions C80_only_positives_matter.
