(** * Prop_Rename.v : C96 -- fit sees the training data only up to names: of columns, of the values in a column, of rows, and of classes *)
From Verif Require Import RenameSpec RenSim RenTrain RenFit RelabelSpec CallForm TrainSpec TrainView ClfFacts FitFacts FitRun PrepFacts Prop_Fit Prop_FitModel Prop_Fires Prop_Helpers Prop_Call Prop_Train Prop_Relabel Demo.
Open Scope nat_scope.

Lemma index_length X y cf names f vs ix fr : training_input X y cf names f vs ix -> table_of X names fr -> length ix = length (frows fr) /\ good_frame fr.
Proof.
  intros T TB. destruct T as [fr' EY ECF T G NE CP CV EIX|y' fr' EY NC FF T G NE S EV L EIX]; assert (fr' = fr) by (eapply table_fun; eauto); subst fr' ix.
  - split; auto. apply map_length.
  - split; auto. subst vs. unfold label_index, series_ok in *. destruct y' as [n l i|l]; cbn [y_vals] in *; [congruence|]. apply map_length.
Qed.
Lemma nth_combine_row (f : row -> list pyval) ix rows i : length ix = length rows -> i < length rows ->
  rcells (nth i (map (fun p => mkrow (fst p) (snd p)) (combine ix (map f rows))) (mkrow 0 [])) = f (nth i rows (mkrow 0 [])).
Proof.
  revert ix i. induction rows as [|r rows IH]; intros [|l ix] i L I; try discriminate; [inversion I|]. destruct i as [|i]; [reflexivity|]. cbn [map combine nth]. apply IH; [cbn in L; lia|cbn in I; lia].
Qed.
Lemma val_features f fr ix i j : length ix = length (frows fr) -> i < length (frows fr) -> val (features_of f fr ix) i j = value_ij f fr i j.
Proof. intros L I. unfold val, value_ij, features_of. cbn [frows]. rewrite nth_combine_row; auto. Qed.
Lemma numeric_iff vs : is_numeric_col vs = true <-> numeric vs.
Proof.
  unfold is_numeric_col, numeric. rewrite forallb_forall. split; intros H v I; specialize (H v I).
  - destruct v; try discriminate; [left; eauto|right; left; eauto|right; right; auto].
  - destruct H as [(z & ->)|[(m & k & ->)| -> ] ]; reflexivity.
Qed.
Lemma bool_iff (b c : bool) : (b = true <-> c = true) -> b = c. Proof. intros H. apply Bool.eq_true_iff_eq. exact H. Qed.

Theorem C96_only_structure_matters : forall w w' cl X y cf names X' y' cf' names' f f' p p' vs vs' ix ix' fr fr' cnopt kw c1,
  world_ok w -> same_chance ix ix' w w' ->
  training_input X y cf names f vs ix -> training_input X' y' cf' names' f' vs' ix' -> NoDup ix -> NoDup ix' ->
  table_of X names fr -> table_of X' names' fr' ->
  recoded f f' fr fr' -> numbers_kept f f' fr fr' -> (cnopt = true \/ values_kept f f' fr fr') ->
  plain_names (feature_columns f fr) -> plain_names (feature_columns f' fr') -> same_positives p p' vs vs' ->
  let h := hyper_of cl kw in
  (0 <= h_prune h)%Q -> (h_prune h <= 1)%Q -> (h_nbins h = None \/ exists n, h_nbins h = Some n /\ (0 <= n)%Z) ->
  fit w cl X y cf (Some p) names MNone cnopt kw = (c1, Ok tt) ->
  exists c2, fit w' cl X' y' cf' (Some p') names' MNone cnopt kw = (c2, Ok tt) /\ c_cf c2 = Some f' /\ c_pc c2 = Some p' /\ same_model f f' fr fr' c1 c2.
Proof.
  intros w w' cl X y cf names X' y' cf' names' f f' p p' vs vs' ix ix' fr fr' cnopt kw c1 WO SC T T' ND ND' TB TB' (RC1 & RC2 & RC3) NK VK PN PN' SP h P0 P1 NB H.
  destruct (fit_fitted _ _ _ _ _ _ _ _ _ _ _ H) as (df & f1 & p1 & bt & xi & x1 & x2 & FT).
  destruct (pre_good _ _ _ _ _ _ _ _ _ _ _ _ _ _ _ WO (nbins_fine_ok _ NB) T ND (ft_pre _ _ _ _ _ _ _ _ _ _ _ _ _ _ _ _ _ _ FT)) as (-> & G & LB & HC & NE & CV & _).
  destruct FT as [FP FI FTR FF FR FC FPC FBT FS FAL FH FCl (feats & CW & FFe)]. cbn [frommodel] in FI. injection FI as <-.
  destruct (input_pre _ _ _ _ _ _ _ T) as (a & Ga & Ha & Ca & La & NEa & TDa & Pa). destruct (input_pre _ _ _ _ _ _ _ T') as (b & Gb & Hb & Cb & Lb & NEb & TDb & Pb).
  rewrite Pa in FP. cbn [get_pos_class bind] in FP. binv FP. destruct v as [bt0 df0]. injection FP as -> <- ->. rename E into EA.
  set (xa := features_of f fr ix). set (xb := features_of f' fr' ix').
  destruct (index_length _ _ _ _ _ _ _ _ T TB) as [LI _]. destruct (index_length _ _ _ _ _ _ _ _ T' TB') as [LI' _].
  assert (RA : length (frows a) = length (frows fr)) by (rewrite <- LI, <- La; unfold labels; rewrite map_length; reflexivity).
  assert (RB : length (frows b) = length (frows fr')) by (rewrite <- LI', <- Lb; unfold labels; rewrite map_length; reflexivity).
  assert (VA : forall i j, i < length (frows a) -> val xa i j = value_ij f fr i j) by (intros; apply val_features; congruence).
  assert (VB : forall i j, i < length (frows a) -> val xb i j = value_ij f' fr' i j) by (intros; apply val_features; congruence).
  assert (RN : ren f f' p p' a b xa xb).
  { constructor; auto.
    - apply (raw_drop _ _ _ _ _ _ _ _ _ T TB TDa).
    - apply (raw_drop _ _ _ _ _ _ _ _ _ T' TB' TDb).
    - congruence.
    - rewrite La; auto.
    - rewrite Lb; auto.
    - rewrite Ca, Cb. apply positives_map; auto.
    - intros i k j I K J. rewrite !VA, !VB by auto. apply bool_iff. apply (RC3 i k j); congruence || exact J.
    - intros i k j I K J. rewrite !VA, !VB by auto. apply bool_iff. rewrite !str_eqb_eq. apply (RC3 i k j); congruence || exact J. }
  assert (SEQ : forall j, map (fun i => val xa i j) (seq 0 (length (frows a))) = values_of f fr j /\ map (fun i => val xb i j) (seq 0 (length (frows a))) = values_of f' fr' j).
  { intros j. unfold values_of. rewrite <- RC2, RA. split; apply map_ext_in; intros i I; apply in_seq in I; [apply VA|apply VB]; lia. }
  assert (NUM : forall j, j < length (fcols xa) -> eqc (length (frows a)) xa xb j \/ (is_numeric_col (map (fun i => val xa i j) (seq 0 (length (frows a)))) = false /\ is_numeric_col (map (fun i => val xb i j) (seq 0 (length (frows a)))) = false)).
  { intros j J. destruct (SEQ j) as [-> ->]. destruct (NK j J) as [K|[K1 K2] ].
    - left. intros i I. rewrite VA, VB by auto. unfold values_of in K. rewrite <- RC2 in K. rewrite RA in I. apply (f_equal (fun l => nth i l PNaN)) in K.
      rewrite !(nth_indep _ PNaN (value_ij f fr 0 j)) in K by (rewrite map_length, seq_length; auto). rewrite (map_nth (fun i => value_ij f fr i j)) in K.
      rewrite (nth_indep _ (value_ij f fr 0 j) (value_ij f' fr' 0 j)), (map_nth (fun i => value_ij f' fr' i j)) in K by (rewrite map_length, seq_length; auto). rewrite seq_nth in K by auto. exact K.
    - right. split; apply Bool.not_true_iff_false; intros Q; apply numeric_iff in Q; auto. }
  pose proof (fit_transform_rn f f' p p' (w_cut w) (w_cut w') (fit_nbins cl kw) a b xa xb (sc_cut _ _ _ _ SC) RN NUM) as R. rewrite EA in R.
  destruct (fit_transform (w_cut w') (fit_nbins cl kw) b [f']) as [[bt' df']|] eqn:EB; cbn [rres] in R; [|contradiction].
  destruct R as (bins & bins' & B1 & B2 & B3 & B4 & B5 & (ya & yb & RN' & YA & YB & YL & YLA & YLB & YE & YK)). cbn [fst snd] in *.
  assert (PB : fit_pre w' cl X' y' cf' (Some p') names' kw = Ok (df', f', p', bt')) by (rewrite Pb; cbn [get_pos_class bind]; rewrite EB; reflexivity).
  destruct (has_f _ _ _ _ _ _ _ _ RN') as [_ HC'].
  assert (NE' : frows df' <> []) by (pose proof (rn_len _ _ _ _ _ _ _ _ RN') as LL; destruct (frows df), (frows df'); try congruence; discriminate).
  assert (RL : forall i i', rl df df' i i' <-> same_row ix ix' i i') by (intros; unfold rl, same_row; rewrite YLA, YLB, La, Lb; tauto).
  assert (TR := train_rn f f' p p' df df' ya yb RN' (w_env w) (w_env w')).
  assert (KEEP : cnopt = true \/ forall i j, i < length (frows df) -> j < length (fcols ya) -> val ya i j = val yb i j).
  { destruct VK as [VK|VK]; [auto|right]. intros i j. rewrite YL, YA. intros I J. apply (YE j J); auto. intros k K. rewrite VA, VB by auto. apply VK; [congruence|exact J]. }
  assert (SH : forall t l l', Forall2 (rl df df') l l' -> Forall2 (rl df df') (shuf (w_env w) t l) (shuf (w_env w') t l')).
  { intros t l l' F. assert (F' : Forall2 (same_row ix ix') l l') by (eapply F2_imp; [|exact F]; intros; apply RL; auto). eapply F2_imp; [|apply (sc_shuf _ _ _ _ SC t _ _ F')]. intros; apply RL; auto. }
  assert (SI : forall l v, In v (set_order (w_env w) l) -> In v l) by (intros l v; apply Permutation_in; apply (ok_set _ (proj1 WO))).
  specialize (TR SH (sc_split _ _ _ _ SC) (sc_set _ _ _ _ SC) SI (c_alg cl) h cnopt KEEP). fold h in FTR, FF. rewrite FTR in TR.
  destruct (train (c_alg cl) (w_env w') h cnopt df' f' p' (Ruleset_ [])) as [y1|] eqn:FTR'; cbn [rres] in TR; [|contradiction]. destruct TR as (RR1 & _ & _).
  assert (FE : forall q q', Rr (rc df ya yb) q q' -> forall c, In c (conds q) -> In (cfeat c) (fcols ya)).
  { intros q q' [K _]. clear -K. induction K as [|c c' l l' (j & J & _) K IH]; intros d I; [destruct I|]. destruct I as [<-|I]; [eapply nth_error_In; eauto|auto]. }
  assert (NDS : forall r, In r (rs_rules x1) -> NoDup (cond_strs r)).
  { intros r I. destruct (xgood _ _ _ _ _ _ _ _ RN') as [[_ GD] _]. apply (strs_apart (fcols ya)); [rewrite YA; exact PN|exact GD| |].
    - clear -RR1 I FE. revert RR1 I. induction 1 as [|q q' l l' Q F IH]; intros I; [destruct I|]. destruct I as [<-|I]; [eapply FE; eauto|auto].
    - destruct (setting_exists (w_env w) h df f p (proj1 WO) P0 P1 G LB) as (xx & pp & nn & q & n' & ST); [apply has_col_iff; auto|].
      destruct (c_alg cl); cbn [train] in FTR.
      + destruct (C73_irep_features_once _ _ _ _ _ _ _ _ _ _ _ _ _ ST FTR) as (new & EN & K). cbn [Ruleset_ rs_rules app] in EN. rewrite EN in I. intros u c v d t. apply K. exact I.
      + intros u c v d t. apply (C73_ripper_features_once _ _ _ _ _ _ _ _ _ _ _ _ _ _ _ _ _ _ ST FTR I). }
  pose proof (finish_rn f f' p p' df df' ya yb RN' w w' (c_alg cl) h x1 y1 RR1 NDS) as FN. rewrite FF in FN.
  destruct (finish w' (c_alg cl) h df' f' p' y1) as [y2|] eqn:FF'; cbn [rres] in FN; [|contradiction]. destruct FN as [RR2 UC].
  assert (CW' : cols_without df' f' = Ok (feature_columns f' fr')) by (unfold cols_without; rewrite (rn_xb _ _ _ _ _ _ _ _ RN'); cbn [bind]; rewrite YB; reflexivity).
  assert (EF : feats = feature_columns f fr) by (unfold cols_without in CW; rewrite (rn_xa _ _ _ _ _ _ _ _ RN') in CW; cbn [bind] in CW; rewrite YA in CW; injection CW as <-; reflexivity). subst feats.
  destruct (fit_run w' cl X' y' cf' (Some p') names' MNone cnopt kw df' f' p' bt' (Ruleset_ []) (Ruleset_ []) y1 y2 _ eq_refl PB eq_refl FTR' FF' CW' NE' HC') as (c2 & H2 & E1 & E2 & E3 & E4 & E5 & E6 & E7 & E8).
  destruct (fit_fitted _ _ _ _ _ _ _ _ _ _ _ H2) as (? & ? & ? & ? & ? & ? & ? & FT2). assert (E9 := ft_classes _ _ _ _ _ _ _ _ _ _ _ _ _ _ _ _ _ _ FT2).
  exists c2. split; [auto|]. split; [auto|]. split; [auto|].
  assert (RFE : forall g g', rf ya yb g g' -> same_feature f f' fr fr' g g') by (intros g g' (j & J1 & J2); exists j; rewrite YA in J1; rewrite YB in J2; auto).
  assert (XG : good_frame xa) by apply (xgood _ _ _ _ _ _ _ _ RN).
  constructor; try congruence.
  - exists x2, y2, bt, bt', bins, bins'. do 6 (split; [auto|]). split; [|split; [auto|split; [|auto] ] ].
    + eapply F2_imp; [|exact RR2]. intros r r' [K ST]. split; [|auto]. eapply F2_imp; [|exact K]. intros c c' (j & J1 & J2 & (i & I & V1 & V2)). rewrite YA in J1. rewrite YB in J2. rewrite YL in I.
      exists j. split; [auto|]. split; [auto|]. assert (J : j < length (fcols xa)) by (eapply nth_lt; eauto).
      assert (BE : forall q, In q bins -> exists m, nth_error (fcols xa) m = Some (fst q) /\ eqc (length (frows a)) xa xb m).
      { intros q Iq. clear -B5 Iq. induction B5 as [|q0 q0' l l' (m & M1 & M2 & M3 & M4) F IH]; [destruct Iq|]. destruct Iq as [<-|Iq]; eauto. }
      destruct (existsb (fun q => py_eq (fst q) (cfeat c)) bins) eqn:EX.
      * left. apply existsb_exists in EX. destruct EX as (q & Iq & Q). destruct (BE q Iq) as (m & M1 & M2). assert (m = j) by (apply (proj2 XG m j _ _ M1 J1 Q)). subst m.
        split; [exists (snd q); assert (fst q = cfeat c) as <- by congruence; destruct q; auto|]. rewrite V1, V2. apply (YE j J M2); auto.
      * right. split.
        -- intros (bs & Ib). assert (K2 : existsb (fun q => py_eq (fst q) (cfeat c)) bins = true); [|congruence]. apply existsb_exists. exists (cfeat c, bs). split; auto. cbn [fst]. apply (name_refl (fcols xa)); [exact PN|]. eapply nth_error_In; eauto.
        -- exists i. split; [congruence|]. destruct (YK i j I J) as [K1 K2].
           { intros q Iq Eq. assert (K2 : existsb (fun q => py_eq (fst q) (cfeat c)) bins = true); [|congruence]. apply existsb_exists. exists q. split; auto. assert (fst q = cfeat c) as -> by congruence. apply (name_refl (fcols xa)); [exact PN|]. eapply nth_error_In; eauto. }
           rewrite V1, V2, K1, K2, VA, VB by auto. auto.
    + eapply F2_imp; [|exact B5]. intros q q' (j & J1 & J2 & J3 & J4). exists j. do 3 (split; [auto|]). destruct (SEQ j) as [<- <-]. apply map_val_eq. exact J4.
  - exists (selected_features (rs_rules x1)), (selected_features (rs_rules y1)). split; [auto|]. split; [auto|]. eapply F2_imp; [intros; apply RFE; eauto|]. apply (selected_rn _ _ _ _ _ _ _ _ RN'). exact RR1.
  - split; congruence.
Qed.
Print Assumptions C96_only_structure_matters.

(** ** the same index and the same world: nothing to assume about chance *)
Lemma same_row_eq ix i j : NoDup ix -> same_row ix ix i j -> i = j. Proof. intros N (k & A & B). congruence. Qed.
Lemma chance_refl ix w : world_ok w -> same_chance ix ix w w.
Proof.
  intros WO. constructor; auto. intros t l l' F.
  assert (E : l = l') by (apply F2_eq; eapply F2_imp; [|exact F]; intros i j (k & A & B); congruence). subst l'.
  assert (I : forall i, In i l -> same_row ix ix i i).
  { intros i I. clear -F I. assert (G : forall u v, Forall2 (same_row ix ix) u v -> In i u -> same_row ix ix i i).
    { intros u v H. induction H as [|a b u v (k & A & B) H IH]; intros J; [destruct J|]. destruct J as [<-|J]; [exists k; auto|auto]. } eapply G; eauto. }
  assert (P := ok_shuf _ (proj1 WO) t l). assert (J : forall i, In i (shuf (w_env w) t l) -> same_row ix ix i i) by (intros i K; apply I; eapply Permutation_in; eauto).
  clear -J. induction (shuf (w_env w) t l) as [|i k IH]; constructor; [apply J; left; auto|apply IH; intros; apply J; right; auto].
Qed.
Theorem C96_renamed_columns : forall w cl X y cf names X' y' cf' names' f f' p p' vs vs' ix fr fr' cnopt kw c1,
  world_ok w -> training_input X y cf names f vs ix -> training_input X' y' cf' names' f' vs' ix -> NoDup ix ->
  table_of X names fr -> table_of X' names' fr' ->
  recoded f f' fr fr' -> numbers_kept f f' fr fr' -> (cnopt = true \/ values_kept f f' fr fr') ->
  plain_names (feature_columns f fr) -> plain_names (feature_columns f' fr') -> same_positives p p' vs vs' ->
  let h := hyper_of cl kw in
  (0 <= h_prune h)%Q -> (h_prune h <= 1)%Q -> (h_nbins h = None \/ exists n, h_nbins h = Some n /\ (0 <= n)%Z) ->
  fit w cl X y cf (Some p) names MNone cnopt kw = (c1, Ok tt) ->
  exists c2, fit w cl X' y' cf' (Some p') names' MNone cnopt kw = (c2, Ok tt) /\ c_cf c2 = Some f' /\ c_pc c2 = Some p' /\ same_model f f' fr fr' c1 c2.
Proof.
  intros w cl X y cf names X' y' cf' names' f f' p p' vs vs' ix fr fr' cnopt kw c1 WO T T' ND TB TB' RC NK VK PN PN' SP h P0 P1 NB H.
  apply (C96_only_structure_matters w w cl X y cf names X' y' cf' names' f f' p p' vs vs' ix ix fr fr' cnopt kw c1); auto. apply chance_refl; auto.
Qed.
Print Assumptions C96_renamed_columns.

(** ** both models say the same of the training data *)
Lemma combine_fst cols (cells : list pyval) f : length cells = length cols ->
  map fst (filter (fun p => negb (py_eq (fst p) f)) (combine cols cells)) = filter (fun c => negb (py_eq c f)) cols.
Proof.
  revert cells. induction cols as [|c cols IH]; intros [|v cells] L; try discriminate; [reflexivity|]. cbn [combine filter fst]. destruct (py_eq c f); cbn [negb map fst]; [|f_equal]; apply IH; cbn in L; lia.
Qed.
Lemma feature_value f fr i j r g v : good_frame fr -> plain_names (feature_columns f fr) -> nth_error (frows fr) i = Some r -> nth_error (feature_columns f fr) j = Some g ->
  (value_at (fcols fr) r g v <-> v = value_ij f fr i j).
Proof.
  intros [W D] N R G. assert (L := W r (nth_error_In _ _ R)). assert (Q : py_eq g g = true) by (apply (name_refl _ _ N); eapply nth_error_In; eauto).
  assert (V : value_at (fcols fr) r g (value_ij f fr i j)).
  { unfold value_ij. rewrite (nth_error_nth _ _ (mkrow 0 []) R). unfold feature_cells. unfold feature_columns in G. rewrite <- (combine_fst _ _ _ L) in G. rewrite nth_error_map in G.
    destruct (nth_error (filter _ _) j) as [q|] eqn:E; [|discriminate]. cbn [option_map] in G. injection G as <-.
    assert (E' : nth j (map snd (filter (fun p => negb (py_eq (fst p) f)) (combine (fcols fr) (rcells r)))) PNaN = snd q) by (apply nth_error_nth; rewrite nth_error_map, E; reflexivity). rewrite E'.
    apply nth_error_In in E. apply filter_In in E. destruct E as [E _]. destruct (In_nth_error _ _ E) as (k & K). exists k, (fst q).
    assert (Z : forall (c u : list pyval) k q, nth_error (combine c u) k = Some q -> nth_error c k = Some (fst q) /\ nth_error u k = Some (snd q)).
    { clear. induction c as [|x c IH]; intros [|y u] [|k] q H; try discriminate H; [injection H as <-; auto|cbn [nth_error combine] in *; apply IH; exact H]. }
    destruct (Z _ _ _ _ K). auto. }
  split; [|intros ->; exact V]. intros V'. apply value_at_cell in V, V'; auto. congruence.
Qed.
Lemma feature_pos f fr j k g h : good_frame fr -> plain_names (feature_columns f fr) -> nth_error (feature_columns f fr) j = Some g -> nth_error (feature_columns f fr) k = Some h -> py_eq g h = true -> j = k.
Proof.
  intros [W D] N A B Q. assert (g = h).
  { apply nth_error_In in A, B. unfold feature_columns in A, B. apply filter_In in A, B. destruct A as [A _], B as [B _]. destruct (In_nth_error _ _ A) as (i & I). destruct (In_nth_error _ _ B) as (m & M). assert (i = m) by (eapply D; eauto). congruence. }
  subst h. destruct N as (_ & N & _). apply (proj1 (NoDup_nth_error _) N); [apply nth_error_Some; rewrite nth_error_map, A; discriminate|]. rewrite !nth_error_map, A, B. reflexivity.
Qed.
Section SEE.
Variables (f f' : pyval) (fr fr' : frame) (bt bt' : bin_transformer) (bins bins' : list (pyval * list str)).
Hypotheses (G : good_frame fr) (G' : good_frame fr') (N : plain_names (feature_columns f fr)) (N' : plain_names (feature_columns f' fr')).
Hypotheses (RC : recoded f f' fr fr') (HB : bt_bins bt = Some bins) (HB' : bt_bins bt' = Some bins') (F : Forall2 (same_bins f f' fr fr') bins bins').
Lemma bins_match j g g' b : nth_error (feature_columns f fr) j = Some g -> nth_error (feature_columns f' fr') j = Some g' ->
  (bins_for bt g b <-> bins_for bt' g' b) /\ (bins_for bt g b -> values_of f fr j = values_of f' fr' j) /\ (has_bins bins g <-> exists b, bins_for bt g b).
Proof.
  intros A B.
  assert (Q : py_eq g g = true) by (apply (name_refl _ _ N); eapply nth_error_In; eauto). assert (Q' : py_eq g' g' = true) by (apply (name_refl _ _ N'); eapply nth_error_In; eauto).
  assert (K : forall l l', Forall2 (same_bins f f' fr fr') l l' -> forall g0, (In (g0, b) l -> py_eq g0 g = true -> In (g', b) l' /\ values_of f fr j = values_of f' fr' j /\ g0 = g) /\ (In (g0, b) l' -> py_eq g0 g' = true -> In (g, b) l)).
  { intros l l' FL g0. induction FL as [|[q c] [q' c'] l l' (k & K1 & K2 & K3 & K4) FL [I1 I2] ]; [split; intros []|]. cbn [fst snd] in *. subst c'. split.
    - intros [E|I] P; [|destruct (I1 I P) as (U & V & W); split; [right; auto|auto] ]. injection E as -> ->. assert (k = j) by (eapply (feature_pos f fr); eauto). subst k. split; [left; congruence|]. split; congruence.
    - intros [E|I] P; [|right; auto]. injection E as -> ->. assert (k = j) by (eapply (feature_pos f' fr'); eauto). subst k. left. congruence. }
  split; [|split].
  - split; intros (l & g0 & E & I & P); [rewrite HB in E|rewrite HB' in E]; injection E as <-; destruct (K _ _ F g0) as [K1 K2].
    + exists bins', g'. split; [auto|]. split; [apply K1; auto|auto].
    + exists bins, g. split; [auto|]. split; [apply K2; auto|auto].
  - intros (l & g0 & E & I & P). rewrite HB in E. injection E as <-. destruct (K _ _ F g0) as [K1 _]. apply K1; auto.
  - clear K. split.
    + intros (b0 & I). exists b0, bins, g. auto.
    + intros (b0 & l & g0 & E & I & P). rewrite HB in E. injection E as <-. assert (g0 = g); [|subst; exists b0; auto].
      assert (K : exists k, nth_error (feature_columns f fr) k = Some g0). { clear -F I. induction F as [|q q' l l' (k & K1 & _) FL IH]; [destruct I|]. destruct I as [->|I]; [exists k; exact K1|auto]. }
      destruct K as (k & K). assert (k = j) by (eapply (feature_pos f fr); eauto). congruence.
Qed.
Lemma shown_none t g v u : (forall b, ~ bins_for t g b) -> (ClfSpec.shown t g v u <-> u = v).
Proof. intros H. split; [intros [ [_ K]|[ [_ K]|(_ & ivs & K & _)] ]; auto; destruct (H _ K)|intros ->; right; left; auto]. Qed.
Lemma test_same i r r' c c' : nth_error (frows fr) i = Some r -> nth_error (frows fr') i = Some r' -> same_test f f' fr fr' bins c c' ->
  ((exists u, sees bt (fcols fr) r (cfeat c) u /\ py_eq u (cval c) = true) <-> (exists u, sees bt' (fcols fr') r' (cfeat c') u /\ py_eq u (cval c') = true)).
Proof.
  intros R R' (j & A & B & CASE). assert (I : i < length (frows fr)) by (apply nth_error_Some; congruence). assert (J : j < length (feature_columns f fr)) by (apply nth_error_Some; congruence).
  assert (S1 : forall u, sees bt (fcols fr) r (cfeat c) u <-> ClfSpec.shown bt (cfeat c) (value_ij f fr i j) u).
  { intros u. split; [intros (v & V & W); apply (feature_value f fr i j r) in V; auto; subst; auto|]. intros W. exists (value_ij f fr i j). split; auto. apply (feature_value f fr i j r); auto. }
  assert (S2 : forall u, sees bt' (fcols fr') r' (cfeat c') u <-> ClfSpec.shown bt' (cfeat c') (value_ij f' fr' i j) u).
  { intros u. split; [intros (v & V & W); apply (feature_value f' fr' i j r') in V; auto; subst; auto|]. intros W. exists (value_ij f' fr' i j). split; auto. apply (feature_value f' fr' i j r'); auto. }
  destruct CASE as [ [BN EV]|(NB & i0 & I0 & E1 & E2)].
  - assert (BM := fun b => bins_match j _ _ b A B). destruct (BM []) as (_ & _ & HBF). apply HBF in BN. destruct BN as (b0 & BN). assert (VE := proj1 (proj2 (BM b0)) BN).
    assert (EQ : value_ij f fr i j = value_ij f' fr' i j).
    { unfold values_of in VE. destruct RC as (_ & RL & _). rewrite <- RL in VE. apply (f_equal (fun l => nth_error l i)) in VE. rewrite !nth_error_map in VE. rewrite (nth_error_nth' _ 0) in VE by (rewrite seq_length; auto). rewrite seq_nth in VE by auto. cbn in VE. injection VE as VE. exact VE. }
    assert (SE : forall u, ClfSpec.shown bt (cfeat c) (value_ij f fr i j) u <-> ClfSpec.shown bt' (cfeat c') (value_ij f' fr' i j) u).
    { intros u. rewrite <- EQ. unfold ClfSpec.shown. split; intros [K|[ [K1 K2]|(K1 & ivs & K2 & K3)] ]; auto.
      - right. left. split; [|auto]. intros b K. apply (K1 b). apply BM. auto.
      - right. right. split; [auto|]. exists ivs. split; [apply BM; auto|auto].
      - right. left. split; [|auto]. intros b K. apply (K1 b). apply BM. auto.
      - right. right. split; [auto|]. exists ivs. split; [apply BM; auto|auto]. }
    rewrite <- EV. split; intros (u & U & P); exists u; (split; [|auto]); [apply S2, SE, S1|apply S1, SE, S2]; auto.
  - assert (BM := fun b => bins_match j _ _ b A B).
    assert (NB1 : forall b, ~ bins_for bt (cfeat c) b) by (intros b K; apply NB; apply (proj2 (proj2 (BM b))); eauto).
    assert (NB2 : forall b, ~ bins_for bt' (cfeat c') b) by (intros b K; apply (NB1 b); apply BM; auto).
    destruct RC as (_ & _ & RC3). destruct (RC3 i i0 j I I0 J) as [RC4 _]. rewrite E1, E2. split; intros (u & U & P).
    + apply S1 in U. apply (shown_none _ _ _ _ NB1) in U. subst u. exists (value_ij f' fr' i j). split; [apply S2; apply shown_none; auto|apply RC4; auto].
    + apply S2 in U. apply (shown_none _ _ _ _ NB2) in U. subst u. exists (value_ij f fr i j). split; [apply S1; apply shown_none; auto|apply RC4; auto].
Qed.
Lemma holds_same i r r' q q' : nth_error (frows fr) i = Some r -> nth_error (frows fr') i = Some r' -> same_rule f f' fr fr' bins q q' -> (holds bt (fcols fr) r q <-> holds bt' (fcols fr') r' q').
Proof.
  intros R R' [K _]. unfold holds. induction K as [|c c' l l' C K IH]; [split; intros _ c []|].
  pose proof (test_same i r r' c c' R R' C) as TS. split; intros H d [<-|I].
  - apply TS. apply H. left; auto.
  - apply IH; auto. intros e J. apply H. right; auto.
  - apply TS. apply H. left; auto.
  - apply IH; auto. intros e J. apply H. right; auto.
Qed.
End SEE.
Lemma picks_rel {A B} (P : A -> Prop) (Q : B -> Prop) (R : A -> B -> Prop) l l' : (forall x y, R x y -> (P x <-> Q y)) -> Forall2 R l l' -> forall m m', picks P l m -> picks Q l' m' -> Forall2 R m m'.
Proof.
  intros H F. induction F as [|x y l l' RXY F IH]; intros m m' M M'; inversion M; subst; inversion M'; subst; auto; specialize (H _ _ RXY); tauto.
Qed.

Theorem C96_same_training_predictions : forall w w' cl X y cf names X' y' cf' names' f f' p p' vs vs' ix ix' fr fr' cnopt kw c1 c2 X2 names2 fr2 X2' names2' fr2',
  world_ok w -> world_ok w' -> same_chance ix ix' w w' ->
  training_input X y cf names f vs ix -> training_input X' y' cf' names' f' vs' ix' -> NoDup ix -> NoDup ix' ->
  table_of X names fr -> table_of X' names' fr' ->
  recoded f f' fr fr' -> numbers_kept f f' fr fr' -> (cnopt = true \/ values_kept f f' fr fr') ->
  plain_names (feature_columns f fr) -> plain_names (feature_columns f' fr') -> same_positives p p' vs vs' ->
  let h := hyper_of cl kw in
  (0 <= h_prune h)%Q -> (h_prune h <= 1)%Q -> (h_nbins h = None \/ exists n, h_nbins h = Some n /\ (0 <= n)%Z) ->
  fit w cl X y cf (Some p) names MNone cnopt kw = (c1, Ok tt) -> fit w' cl X' y' cf' (Some p') names' MNone cnopt kw = (c2, Ok tt) ->
  prediction_input X2 names2 f fr2 -> good_frame fr2 -> distinct_labels fr2 -> same_data f fr fr2 ->
  prediction_input X2' names2' f' fr2' -> good_frame fr2' -> distinct_labels fr2' -> same_data f' fr' fr2' ->
  exists preds reasons reasons' bins,
    clf_predict_reasons c1 X2 names2 = (c1, Ok (preds, reasons)) /\ clf_predict_reasons c2 X2' names2' = (c2, Ok (preds, reasons')) /\
    clf_predict c1 X2 names2 = (c1, Ok preds) /\ clf_predict c2 X2' names2' = (c2, Ok preds) /\
    Forall2 (Forall2 (same_rule f f' fr fr' bins)) reasons reasons'.
Proof.
  intros w w' cl X y cf names X' y' cf' names' f f' p p' vs vs' ix ix' fr fr' cnopt kw c1 c2 X2 names2 fr2 X2' names2' fr2' WO WO' SC T T' ND ND' TB TB' RC NK VK PN PN' SP h P0 P1 NB H1 H2 PI G2 D2 SD PI' G2' D2' SD'.
  destruct (C96_only_structure_matters _ _ _ _ _ _ _ _ _ _ _ _ _ _ _ _ _ _ _ _ _ _ _ _ WO SC T T' ND ND' TB TB' RC NK VK PN PN' SP P0 P1 NB H1) as (c & H2' & _ & _ & SM).
  rewrite H2 in H2'. injection H2' as <-. destruct (sm_rules _ _ _ _ _ _ SM) as (x & x' & bt & bt' & bins & bins' & E1 & E1' & E2 & E2' & HB & HB' & FR & _ & FB & _).
  destruct (C76_training_data _ _ _ _ _ _ _ _ _ _ _ _ _ _ _ _ _ WO T ND P0 P1 NB H1 TB PI G2 D2 SD) as (y1 & b1 & q & preds & reasons & A1 & A2 & _ & A3 & A4 & A5 & A6 & A7 & _).
  destruct (C76_training_data _ _ _ _ _ _ _ _ _ _ _ _ _ _ _ _ _ WO' T' ND' P0 P1 NB H2 TB' PI' G2' D2' SD') as (y1' & b1' & q' & preds' & reasons' & A1' & A2' & _ & A3' & A4' & A5' & A6' & A7' & _).
  rewrite E1 in A1. injection A1 as <-. rewrite E1' in A1'. injection A1' as <-. rewrite E2 in A2. injection A2 as <-. rewrite E2' in A2'. injection A2' as <-.
  destruct (index_length _ _ _ _ _ _ _ _ T TB) as [_ GF]. destruct (index_length _ _ _ _ _ _ _ _ T' TB') as [_ GF']. assert (RL : length (frows fr) = length (frows fr')) by apply RC.
  assert (HS : forall i r r' q q', nth_error (frows fr) i = Some r -> nth_error (frows fr') i = Some r' -> same_rule f f' fr fr' bins q q' -> (holds bt (fcols fr) r q <-> holds bt' (fcols fr') r' q')) by (intros; eapply (holds_same f f' fr fr' bt bt' bins bins'); eauto).
  assert (EP : preds = preds').
  { apply nth_error_ext. intros i. destruct (nth_error (frows fr) i) as [r|] eqn:R.
    - assert (I : i < length (frows fr)) by (apply nth_error_Some; congruence). destruct (nth_error (frows fr') i) as [r'|] eqn:R'; [|apply nth_error_None in R'; lia].
      destruct (A7 i r R) as [B _]. destruct (A7' i r' R') as [B' _].
      assert (SH : some_holds bt (fcols fr) r (rs_rules x) <-> some_holds bt' (fcols fr') r' (rs_rules x')).
      { unfold some_holds. clear -FR HS R R'. induction FR as [|q q' l l' Q F IH]; [split; intros (? & [] & _)|]. specialize (HS i r r' q q' R R' Q).
        split; intros (z & [<-|I] & K).
        - exists q'. split; [left; auto|tauto].
        - destruct (proj1 IH) as (z' & Z1 & Z2); [eauto|]. exists z'. split; [right; auto|auto].
        - exists q. split; [left; auto|tauto].
        - destruct (proj2 IH) as (z' & Z1 & Z2); [eauto|]. exists z'. split; [right; auto|auto]. }
      destruct (nth_error preds i) as [u|] eqn:U; [|apply nth_error_None in U; lia]. destruct (nth_error preds' i) as [u'|] eqn:U'; [|apply nth_error_None in U'; lia]. f_equal. apply bool_iff.
      assert (Z : forall z : bool, Some z = Some true <-> z = true) by (intros z; split; congruence). rewrite !Z in *. tauto.
    - apply nth_error_None in R. assert (O1 : nth_error preds i = None) by (apply nth_error_None; lia). assert (O2 : nth_error preds' i = None) by (apply nth_error_None; lia). congruence. }
  subst preds'. exists preds, reasons, reasons', bins. do 4 (split; [auto|]). apply Forall2_of_nth; [congruence|]. intros i m m' M M'.
  assert (I : i < length (frows fr)) by (rewrite <- A6; apply nth_error_Some; congruence).
  destruct (nth_error (frows fr) i) as [r|] eqn:R; [|apply nth_error_None in R; lia]. destruct (nth_error (frows fr') i) as [r'|] eqn:R'; [|apply nth_error_None in R'; lia].
  destruct (A7 i r R) as [_ (rr & B1 & B2)]. destruct (A7' i r' R') as [_ (rr' & B1' & B2')]. assert (rr = m) by congruence. assert (rr' = m') by congruence. subst rr rr'.
  eapply picks_rel; [|exact FR|exact B2|exact B2']. intros q1 q2 Q. eapply HS; eauto.
Qed.
Print Assumptions C96_same_training_predictions.

(** A table with a text and a number column, labels 0/1 and row labels 10 to 16; and the same table with other names for the columns, the classes, the rows and the texts *)
Definition mk_df (cols : list pyval) (ix : list nat) (cl : list pyval) (xs : list (list pyval)) : frame :=
  mkframe cols (map (fun q => mkrow (fst (fst q)) (snd (fst q) :: snd q)) (combine (combine ix cl) xs)).
Definition sold : list pyval := [PInt 1; PInt 1; PInt 0; PInt 0; PInt 0; PInt 1; PInt 1].
Definition shops : frame := mk_df [s_ "sold"; s_ "u"; s_ "v"] [10; 11; 12; 13; 14; 15; 16] sold
  [[s_ "b"; PInt 4]; [s_ "b"; PDec 25 1]; [s_ "a"; PInt 3]; [s_ "b"; PInt (-1)]; [s_ "a"; PInt (-1)]; [s_ "b"; PInt 1]; [s_ "b"; PInt 3]].
Definition said : list pyval := [s_ "yes"; s_ "yes"; s_ "no"; s_ "maybe"; s_ "no"; s_ "yes"; s_ "yes"].
Definition tones : frame := mk_df [s_ "answer"; s_ "tone"; s_ "size"] [3; 1; 4; 15; 9; 2; 6] said
  [[s_ "Low"; PInt 4]; [s_ "Low"; PDec 25 1]; [s_ "high"; PInt 3]; [s_ "Low"; PInt (-1)]; [s_ "high"; PInt (-1)]; [s_ "Low"; PInt 1]; [s_ "Low"; PInt 3]].
Lemma shops_input : training_input (DFrame shops) None (Some (s_ "sold")) None (s_ "sold") sold [10; 11; 12; 13; 14; 15; 16].
Proof.
  apply (input_column _ _ _ _ _ _ _ shops); [reflexivity|reflexivity|apply table_frame|apply good_frameb_ok; vm_compute; reflexivity|discriminate|exists (s_ "sold"); split; [left; reflexivity|reflexivity]|split; [reflexivity|]|reflexivity].
  intros i rw v H1 H2. do 7 (destruct i as [|i]; [injection H1 as <-; injection H2 as <-; exists 0, (s_ "sold"); repeat split; reflexivity|]). destruct i; discriminate.
Qed.
Lemma tones_input : training_input (DFrame tones) None (Some (s_ "answer")) None (s_ "answer") said [3; 1; 4; 15; 9; 2; 6].
Proof.
  apply (input_column _ _ _ _ _ _ _ tones); [reflexivity|reflexivity|apply table_frame|apply good_frameb_ok; vm_compute; reflexivity|discriminate|exists (s_ "answer"); split; [left; reflexivity|reflexivity]|split; [reflexivity|]|reflexivity].
  intros i rw v H1 H2. do 7 (destruct i as [|i]; [injection H1 as <-; injection H2 as <-; exists 0, (s_ "answer"); repeat split; reflexivity|]). destruct i; discriminate.
Qed.
Lemma shops_recoded : recoded (s_ "sold") (s_ "answer") shops tones.
Proof.
  split; [reflexivity|]. split; [reflexivity|]. intros i k j I K J. change (i < 7) in I. change (k < 7) in K. change (j < 2) in J.
  do 7 (destruct i as [|i]; [do 7 (destruct k as [|k]; [do 2 (destruct j as [|j]; [vm_compute; split; split; auto; discriminate|]); lia|]); lia|]). lia.
Qed.
Lemma shops_numbers : numbers_kept (s_ "sold") (s_ "answer") shops tones.
Proof.
  intros j J. change (j < 2) in J. destruct j as [|[|j] ]; [right|left; vm_compute; reflexivity|lia].
  split; intros H; (edestruct H as [(z & E)|[(m & k & E)|E] ]; [left; reflexivity|vm_compute in E; discriminate|vm_compute in E; discriminate|vm_compute in E; discriminate]).
Qed.
Lemma plainb l : forallb (fun c => negb (match c with PNaN => true | _ => false end) && negb (existsb (fun a => if Ascii.ascii_dec "="%char a then true else false) (py_str c))) l = true -> NoDup (map py_str l) -> plain_names l.
Proof.
  intros H N. rewrite forallb_forall in H. split; [intros I; specialize (H _ I); discriminate|]. split; [auto|]. intros c I K. specialize (H c I). apply andb_prop in H. destruct H as [_ H].
  apply Bool.negb_true_iff in H. assert (E : existsb (fun a => if Ascii.ascii_dec "="%char a then true else false) (py_str c) = true); [|congruence]. apply existsb_exists. exists "="%char. split; [auto|reflexivity].
Qed.
Lemma sold_said : same_positives (PInt 1) (s_ "yes") sold said.
Proof. split; [reflexivity|]. intros i v v' H1 H2. do 7 (destruct i as [|i]; [injection H1 as <-; injection H2 as <-; vm_compute; split; auto|]). destruct i; discriminate. Qed.
Lemma w1_chance ix ix' : same_chance ix ix' w1 w1. Proof. constructor; auto. Qed.
Definition ripper_full : clf := construct RIPPER_ [(P_nbins, VOpt (Some 2%Z)); (P_prune, VQ 0)].
Definition shops_clf (a : clf) : clf := fst (fit w1 a (DFrame shops) None (Some (s_ "sold")) (Some (PInt 1)) None MNone true []).
Definition tones_clf (a : clf) : clf := fst (fit w1 a (DFrame tones) None (Some (s_ "answer")) (Some (s_ "yes")) None MNone true []).
Lemma tones_fit a c : a = irep_full \/ a = ripper_full ->
  fit w1 a (DFrame shops) None (Some (s_ "sold")) (Some (PInt 1)) None MNone true [] = (c, Ok tt) -> same_model (s_ "sold") (s_ "answer") shops tones c (tones_clf a).
Proof.
  intros A E. assert (EH : hyper_of a [] = c_hyper a /\ h_nbins (c_hyper a) = Some 2%Z /\ h_prune (c_hyper a) = 0%Q) by (destruct A; subst a; repeat split; reflexivity). destruct EH as (EH & NB & PR).
  destruct (C96_only_structure_matters w1 w1 a (DFrame shops) None (Some (s_ "sold")) None (DFrame tones) None (Some (s_ "answer")) None (s_ "sold") (s_ "answer") (PInt 1) (s_ "yes")
    sold said [10; 11; 12; 13; 14; 15; 16] [3; 1; 4; 15; 9; 2; 6] shops tones true [] c w1_ok (w1_chance _ _) shops_input tones_input) as (c2 & E2 & _ & _ & SM); try (rewrite EH); try (rewrite PR; discriminate); auto.
  - repeat constructor; cbn; intuition discriminate.
  - repeat constructor; cbn; intuition discriminate.
  - apply table_frame.
  - apply table_frame.
  - exact shops_recoded.
  - exact shops_numbers.
  - apply plainb; [vm_compute; reflexivity|]. vm_compute. repeat constructor; cbn; intuition discriminate.
  - apply plainb; [vm_compute; reflexivity|]. vm_compute. repeat constructor; cbn; intuition discriminate.
  - exact sold_said.
  - right. exists 2%Z. split; [exact NB|discriminate].
  - unfold tones_clf. rewrite E2. exact SM.
Qed.
Example C96_nonvacuous : forall a, a = irep_full \/ a = ripper_full ->
  same_model (s_ "sold") (s_ "answer") shops tones (shops_clf a) (tones_clf a) /\
  Prop_Relabel.shown (shops_clf a) = Some [$"[u=b^v=>-1.0]"] /\ Prop_Relabel.shown (tones_clf a) = Some [$"[tone=Low^size=>-1.0]"].
Proof.
  intros a A. split; [|destruct A; subst a; split; vm_compute; reflexivity].
  apply tones_fit; [exact A|]. rewrite (surjective_pairing (fit _ _ _ _ _ _ _ _ _ _)). apply f_equal2; [reflexivity|]. destruct A as [A|A]; subst a; vm_compute; reflexivity.
Qed.
