(** * Prop_Prebin.v : discretising the training data first changes nothing (C112) *)
From Verif Require Import Allowance ExtraSpec BaseFacts CoverFacts CallForm FitRun FitFacts MetricsFacts TransFacts ClfFacts ClassFacts TrainView Extra Prop_Bins Prop_Helpers Prop_Prep Prop_Fit Prop_Classifier Prop_FitModel Prop_Carry ClfSpec Demo.
Open Scope nat_scope.

(** ** A column that has been cut is not cut again *)
Lemma cut_shape bins vs out : transform_pandas bins vs = Ok out -> forall v, In v out -> num_of v = None.
Proof.
  unfold transform_pandas. intros H. binv H. destruct (any_overlap v); [discriminate|]. apply Ok_inj in H. subst out. intros u I. apply in_map_iff in I.
  destruct I as (y & <- & _). unfold cut_value. destruct (num_of y); [|reflexivity]. destruct (find _ _); reflexivity.
Qed.
Lemma no_second_cut cut nb col : nbins_ok nb -> bins_of cut nb (binned_col cut nb col) = None.
Proof.
  intros N. unfold binned_col. destruct (bins_of cut nb col) as [b|] eqn:B; [|exact B].
  destruct nb as [n|]; [|reflexivity]. cbn in N. unfold bins_of. destruct (Z.eqb_spec n 0) as [->|NZ]; [reflexivity|].
  set (vs := match transform_pandas b col with Ok vs => vs | Err _ => [] end).
  assert (SH : forall v, In v vs -> num_of v = None).
  { unfold vs. destruct (transform_pandas b col) as [out|] eqn:T; [apply (cut_shape _ _ _ T)|intros v []]. }
  destruct (is_numeric_col vs) eqn:NU; [|reflexivity]. cbn [andb]. destruct (n <? Z.of_nat (length (unique vs)))%Z eqn:L; [|reflexivity].
  destruct (uniq_nan_one vs n ltac:(lia) NU L) as (v & x & I & E). rewrite (SH v I) in E. discriminate E.
Qed.
Lemma refit_bins cut nb df f bt df' : cuts_ok cut -> nbins_ok nb -> good_frame df -> py_eq f f = true -> fit_transform cut nb df [f] = Ok (bt, df') ->
  fit_transform cut nb df' [f] = Ok (mkbt (Some []) [], df').
Proof.
  intros C N G FF H. destruct (binned_columns cut nb df f bt df' C N G H) as (K1 & K2 & G' & K3 & K4).
  destruct (fit_bins_ok cut nb df' [f] C N (proj2 G')) as (bins & EB & DK & BK). destruct (bins_In _ _ _ _ _ N EB) as (bins' & Q & BI). injection Q as <-.
  assert (bins = []) as ->.
  { destruct bins as [|[h b] t]; [reflexivity|]. exfalso. destruct (proj1 (BI h b) (or_introl eq_refl)) as (I & IG & BO). rewrite ignored_one in IG.
    rewrite (K4 h IG), no_second_cut in BO by exact N. discriminate BO. }
  unfold fit_transform. rewrite EB. cbn [bind]. reflexivity.
Qed.

(** ** C112. Training on a table that was discretised with the bins of a fitted classifier: the same model. *)
Theorem C112_binned_first : forall w cl cl2 X y cf pc names init cnopt kw f vs ix cl' bt,
  world_ok w -> nbins_fine (h_nbins (hyper_of cl kw)) -> training_input X y cf names f vs ix ->
  fit w cl X y cf pc names init cnopt kw = (cl', Ok tt) -> c_bt cl' = Some bt -> c_alg cl2 = c_alg cl -> hyper_of cl2 kw = hyper_of cl kw ->
  exists table binned_table cl2' bt2,
    training_df X y f names = Ok table /\ transform bt table = Ok binned_table /\
    fcols binned_table = fcols table /\ labels (frows binned_table) = labels (frows table) /\
    (forall i rw rb, nth_error (frows table) i = Some rw -> nth_error (frows binned_table) i = Some rb ->
      forall g v, column_present table g -> (value_at (fcols binned_table) rb g v <-> sees bt (fcols table) rw g v)) /\
    fit w cl2 (DFrame binned_table) None (Some f) pc None init cnopt kw = (cl2', Ok tt) /\
    c_rs cl2' = c_rs cl' /\ c_cf cl2' = c_cf cl' /\ c_pc cl2' = c_pc cl' /\ c_sel cl2' = c_sel cl' /\ c_feats cl2' = c_feats cl' /\
    c_bt cl2' = Some bt2 /\ sound_bt bt2 /\ forall g b, ~ bins_for bt2 g b.
Proof.
  intros w cl cl2 X y cf pc names init cnopt kw f vs ix cl' bt WO NF T H EB EA EH.
  assert (NB := nbins_fine_ok _ NF). destruct WO as [WE WC].
  destruct (fit_fitted _ _ _ _ _ _ _ _ _ _ _ H) as (df & f' & p & bt' & xi & x1 & x2 & FT).
  destruct (input_pre _ _ _ _ _ _ _ T) as (table & G & HC & EC & EL & NE & TD & PR).
  assert (FP := ft_pre _ _ _ _ _ _ _ _ _ _ _ _ _ _ _ _ _ _ FT). rewrite PR in FP. binv FP. rename v into p0, E into PC. binv FP. destruct v as [bt0 df0]. rename E into FTR.
  apply Ok_inj in FP. injection FP as -> -> -> ->.
  assert (B' := ft_bt _ _ _ _ _ _ _ _ _ _ _ _ _ _ _ _ _ _ FT). rewrite EB in B'. injection B' as <-.
  assert (FF : py_eq f' f' = true). { apply has_col_iff in HC. destruct HC as (c & _ & Q). eapply py_eq_refl_r; exact Q. }
  change (fit_nbins cl kw) with (h_nbins (hyper_of cl kw)) in FTR.
  assert (RB := refit_bins _ _ _ _ _ _ WC NB G FF FTR).
  destruct (binned_columns _ _ _ _ _ _ WC NB G FTR) as (K1 & K2 & G' & K3 & K4).
  assert (TR : transform bt table = Ok df). { unfold fit_transform in FTR. binv FTR. binv FTR. apply Ok_inj in FTR. injection FTR as -> ->. exact E0. }
  assert (LEN : length (frows df) = length (frows table)) by (unfold labels in K2; apply (f_equal (@length nat)) in K2; rewrite !map_length in K2; exact K2).
  assert (NE' : frows df <> []) by (intros Z; rewrite Z in LEN; destruct (frows table); [congruence|discriminate]).
  assert (HC' : has_col df f' = true) by (unfold has_col in *; rewrite K1; exact HC).
  assert (T2 : training_input (DFrame df) None (Some f') None f' vs (labels (frows df))).
  { apply (input_column _ _ _ _ _ _ _ df); auto; [constructor|apply has_col_iff; exact HC'|]. rewrite <- EC, <- (K3 f' FF). split; [apply column_length; [apply G'|exact HC']|].
    intros i rw v Hi Hv. apply (value_column df f' i rw v G' HC' Hi). exact Hv. }
  destruct (input_pre _ _ _ _ _ _ _ T2) as (df2 & _ & _ & _ & _ & _ & TD2 & PR2). unfold training_df in TD2. cbn [rename to_df bind] in TD2. apply Ok_inj in TD2. subst df2.
  assert (FP2 : fit_pre w cl2 (DFrame df) None (Some f') pc None kw = Ok (df, f', p, mkbt (Some []) [])).
  { rewrite PR2, PC. cbn [bind]. change (fit_nbins cl2 kw) with (h_nbins (hyper_of cl2 kw)). rewrite EH, RB. reflexivity. }
  assert (ST : exists x0, irep_start init = Ok x0).
  { assert (FI := ft_init _ _ _ _ _ _ _ _ _ _ _ _ _ _ _ _ _ _ FT). unfold frommodel in FI. unfold irep_start. destruct (falsy init); [eauto|].
    destruct init as [|x|s|[x|]|items|]; try discriminate FI; eauto. }
  destruct ST as (x0 & ST). destruct (ft_feats _ _ _ _ _ _ _ _ _ _ _ _ _ _ _ _ _ _ FT) as (feats & CW & CF).
  destruct (fit_run w cl2 (DFrame df) None (Some f') pc None init cnopt kw df f' p (mkbt (Some []) []) x0 xi x1 x2 feats ST FP2 (ft_init _ _ _ _ _ _ _ _ _ _ _ _ _ _ _ _ _ _ FT)) as (cl2' & R1 & R2 & R3 & R4 & R5 & R6 & R7 & _).
  { rewrite EA, EH. exact (ft_train _ _ _ _ _ _ _ _ _ _ _ _ _ _ _ _ _ _ FT). }
  { rewrite EA, EH. exact (ft_finish _ _ _ _ _ _ _ _ _ _ _ _ _ _ _ _ _ _ FT). }
  { exact CW. } { exact NE'. } { exact HC'. }
  exists table, df, cl2', (mkbt (Some []) []). split; [exact TD|]. split; [exact TR|]. split; [exact K1|]. split; [exact K2|]. split.
  - assert (SB : sound_bt bt) by (eapply (fit_pre_sound w cl X y cf pc names kw f' vs ix); [split; [exact WE|exact WC]|exact NB|exact T|exact (ft_pre _ _ _ _ _ _ _ _ _ _ _ _ _ _ _ _ _ _ FT)]).
    assert (NP : ~ column_present table PNaN) by (intros (c & _ & Q); rewrite py_eq_nan_r in Q; discriminate Q).
    assert (BI : binnable bt table PNaN).
    { unfold fit_transform in FTR. binv FTR. binv FTR. apply Ok_inj in FTR. injection FTR as -> ->.
      destruct (fit_bins_ok _ _ _ [f'] WC NB (proj2 G)) as (bins & EB2 & DK & BK). rewrite E in EB2. apply Ok_inj in EB2. subst bt.
      intros g b (bins' & h & Q & I & QE) CP _. cbn [bt_bins] in Q. injection Q as <-. left. intros rw v IR V. destruct (BK h b I) as (I1 & NU & _).
      assert (HG : has_col table g = true) by (apply has_col_iff; exact CP). destruct (In_nth_error _ _ IR) as (i & Hi). apply (value_column table g i rw v G HG Hi) in V. apply nth_error_In in V.
      rewrite (column_eq table g h QE) in NU. unfold is_numeric_col in NU. rewrite forallb_forall in NU. specialize (NU v V). unfold number. destruct v; try discriminate NU; eauto. }
    destruct (transform_shown bt table PNaN SB G NE NP BI) as (d2 & E2 & _ & _ & _ & VV).
    assert (d2 = df) as ->; [|exact VV]. destruct (bt_bool bt) eqn:BB; [congruence|]. apply Ok_inj in E2. subst d2.
    unfold transform in TR. unfold bt_bool in BB. destruct (bt_bins bt) as [[|q l]|]; try discriminate; cbn in TR; congruence.
  - split; [exact R1|]. split; [rewrite R2, (ft_rs _ _ _ _ _ _ _ _ _ _ _ _ _ _ _ _ _ _ FT); reflexivity|]. split; [rewrite R3, (ft_cf _ _ _ _ _ _ _ _ _ _ _ _ _ _ _ _ _ _ FT); reflexivity|].
    split; [rewrite R4, (ft_pc _ _ _ _ _ _ _ _ _ _ _ _ _ _ _ _ _ _ FT); reflexivity|]. split; [rewrite R6, (ft_sel _ _ _ _ _ _ _ _ _ _ _ _ _ _ _ _ _ _ FT); reflexivity|].
    split; [rewrite R7, CF; reflexivity|]. split; [exact R5|]. split; [right; exists []; repeat split; [constructor|intros g b []]|]. intros g b (bs & h & Q & I & _). cbn [bt_bins] in Q. injection Q as <-. contradiction.
Qed.
Print Assumptions C112_binned_first.

(** ** ... which predicts for the discretised rows what the first classifier predicts for the rows as they were *)
(** [fr2] has the columns of [fr] the rules may use, row by row with the values as the bins of [bt] show them *)
Definition binned_rows (bt : bin_transformer) (cf : pyval) (fr fr2 : frame) : Prop :=
  length (frows fr2) = length (frows fr) /\ (forall g, usable fr cf g -> column_present fr2 g) /\
  forall i rw rw2, nth_error (frows fr) i = Some rw -> nth_error (frows fr2) i = Some rw2 ->
    forall g v, usable fr cf g -> (value_at (fcols fr2) rw2 g v <-> sees bt (fcols fr) rw g v).
Lemma Forall2_pair {A B} (P : A -> Prop) (Q : B -> Prop) : forall (l : list A) (m : list B) (p : list bool),
  length m = length l -> (forall i a b, nth_error l i = Some a -> nth_error m i = Some b -> (P a <-> Q b)) ->
  Forall2 (fun a q => q = true <-> P a) l p -> Forall2 (fun b q => q = true <-> Q b) m p.
Proof.
  intros l m p L H F. revert m L H. induction F as [|a q l p E F IH]; intros [|b m] L H; try discriminate L; constructor.
  - rewrite E. apply (H 0); reflexivity.
  - apply IH; [injection L as L; exact L|]. intros i u v U V. apply (H (S i)); assumption.
Qed.
Theorem C112_same_predictions : forall cl cl2 x cf pc sel bt bt2 X names fr X2 names2 fr2,
  ready cl x cf pc sel -> c_bt cl = Some bt -> ready cl2 x cf pc sel -> c_bt cl2 = Some bt2 -> sound_bt bt2 -> (forall g b, ~ bins_for bt2 g b) ->
  suits cl x cf sel bt X names fr -> prediction_input X2 names2 cf fr2 -> good_frame fr2 -> distinct_labels fr2 -> binned_rows bt cf fr fr2 ->
  exists preds, clf_predict cl X names = (cl, Ok preds) /\ clf_predict cl2 X2 names2 = (cl2, Ok preds).
Proof.
  intros cl cl2 x cf pc sel bt bt2 X names fr X2 names2 fr2 R B R2 B2 SB2 NB S PI G DL (LEN & PRES & CELLS).
  destruct (C01_classifier_predict _ _ _ _ _ _ _ _ _ R B S) as (preds & P & F).
  assert (US : forall g, usable fr cf g -> usable fr2 cf g) by (intros g U; split; [apply PRES; exact U|apply U]).
  assert (S2 : suits cl2 x cf sel bt2 X2 names2 fr2).
  { destruct S as [S1 S2 S3 S4 S5 S6 S7 S8]. constructor; auto.
    - intros Z. rewrite Z in LEN. destruct (frows fr); [congruence|discriminate].
    - intros g b BF. destruct (NB g b BF). }
  destruct (C01_classifier_predict _ _ _ _ _ _ _ _ _ R2 B2 S2) as (preds2 & P2 & F2).
  exists preds. split; [exact P|]. rewrite P2. do 2 f_equal. apply (preds_eq (fun rw => some_holds bt2 (fcols fr2) rw (rs_rules x)) (frows fr2)); [exact F2|].
  apply (Forall2_pair (fun rw => some_holds bt (fcols fr) rw (rs_rules x)) _ (frows fr)); [exact LEN| |exact F].
  intros i rw rw2 Hi Hj. assert (ONE : forall g w, sees bt2 (fcols fr2) rw2 g w <-> value_at (fcols fr2) rw2 g w).
  { intros g w. unfold sees, shown. split; [|intros V; exists w; split; [exact V|right; left; split; [apply NB|reflexivity]]].
    intros (v & V & [[_ ->]|[[_ ->]|(_ & ivs & BF & _)]]); auto. destruct (NB _ _ BF). }
  unfold some_holds, holds. split; intros (r & I & H); exists r; (split; [exact I|]); intros c J; destruct (H c J) as (w & V & E); exists w; (split; [|exact E]);
    (assert (U : usable fr cf (cfeat c)) by (apply (su_rules _ _ _ _ _ _ _ _ S); exists r, c; auto)).
  - apply ONE. apply (CELLS i rw rw2 Hi Hj _ _ U). exact V.
  - apply (CELLS i rw rw2 Hi Hj _ _ U). apply ONE. exact V.
Qed.
Print Assumptions C112_same_predictions.

(** The people of Prop_FitModel: the table discretised with the fitted bins has labels in column "v"; trained on it, a new IREP has the same rules and
    no bins, and predicts for the discretised newcomers what the first one predicts for the newcomers *)
Definition binned_people : frame := Eval vm_compute in
  match training_df (DRows people) (Some people_y) (s_ "t") (Some [s_ "u"; s_ "v"]) with
  | Ok t => match transform people_bt t with Ok b => b | Err _ => mkframe [] [] end | Err _ => mkframe [] [] end.
Definition people_clf2 : clf := fst (fit w1 irep_bins2 (DFrame binned_people) None (Some (s_ "t")) None None MNone true []).
Definition newcomers2 : frame := mkframe [s_ "v"; s_ "u"] [mkrow 0 [s_ ">-1.0"; s_ "a"]; mkrow 1 [s_ "<-1.0"; s_ "b"]; mkrow 2 [s_ ">-1.0"; s_ "zzz"]].
Example C112_nonvacuous :
  (exists vs ix, training_input (DRows people) (Some people_y) None (Some [s_ "u"; s_ "v"]) (s_ "t") vs ix) /\ world_ok w1 /\ nbins_fine (h_nbins (hyper_of irep_bins2 [])) /\
  In (s_ ">-1.0") (column binned_people (s_ "v")) /\ In (s_ "<-1.0") (column binned_people (s_ "v")) /\
  c_rs people_clf2 = Some people_rules /\ rs_rules people_rules <> [] /\ c_bt people_clf2 = Some (mkbt (Some []) []) /\
  (exists fr2, good_frame fr2 /\ binned_rows people_bt (s_ "t") newcomers fr2) /\
  snd (clf_predict people_clf (DFrame newcomers) None) = Ok [true; false; true] /\
  snd (clf_predict people_clf2 (DFrame newcomers2) None) = Ok [true; false; true].
Proof.
  split; [eexists; eexists; exact people_input|]. split; [exact w1_ok|]. split; [right; exists 2%Z; split; [reflexivity|lia]|]. split; [vm_compute; tauto|]. split; [vm_compute; tauto|].
  split; [vm_compute; reflexivity|]. split; [vm_compute; discriminate|]. split; [vm_compute; reflexivity|]. split; [|vm_compute; split; reflexivity].
  destruct (prediction_frame_views _ _ _ _ _ _ _ _ _ people_ready people_suits) as (df & _ & V). exists df. split; [apply (vw_good _ _ _ _ V)|].
  split; [apply (views_length _ _ _ _ V)|]. split; [apply (vw_present _ _ _ _ V)|apply (vw_cells _ _ _ _ V)].
Qed.
