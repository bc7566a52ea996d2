(** * ClassFacts.v : labels, classes, and the frame of fit (C52, C53) *)
From Verif Require Export FitFacts Classifier.
Open Scope nat_scope.

Lemma names_class_facts cf y f X names : names_class cf y f -> data_len X <> 0 ->
  class_feat_name cf (Some y) = Some f /\ check_input X (Some y) cf names true = Ok tt.
Proof.
  intros H L. apply Nat.eqb_neq in L. unfold check_input. rewrite L. cbn [negb].
  destruct H as [f vals -> ->|f n ix vals -> -> E|n ix vals -> ->|vals -> ->]; cbn; auto. rewrite E. auto.
Qed.

Lemma nth_ext_eq {A} (l k : list A) : (forall i, nth_error l i = nth_error k i) -> l = k.
Proof.
  revert k. induction l as [|a l IH]; intros [|b k] H; auto; try (specialize (H 0); discriminate).
  f_equal; [specialize (H 0); injection H; auto|]. apply IH. intros i. apply (H (S i)).
Qed.
Lemma labelled_column fr vals f ix df : labelled fr vals f ix df -> length vals = length (frows fr) -> good_frame df -> py_eq f f = true ->
  has_col df f = true /\ column df f = vals.
Proof.
  intros (L1 & L2 & L3 & L4) LV G FF. destruct G as [W D].
  assert (HC : has_col df f = true).
  { destruct (proj2 (L3 f)) as (c & I & E); auto. apply existsb_exists. eauto. }
  split; auto. rewrite column_map by auto. apply nth_ext_eq. intros i. rewrite nth_error_map.
  destruct (nth_error vals i) as [v|] eqn:Ev.
  - assert (I : i < length (frows fr)) by (rewrite <- LV; apply nth_error_Some; congruence).
    destruct (nth_error (frows fr) i) as [rx|] eqn:Ex; [|apply nth_error_None in Ex; lia].
    destruct (L4 i rx v Ex Ev) as (rd & Ed & V & _). rewrite Ed. cbn [option_map]. f_equal. unfold cell_or.
    destruct (cell (fcols df) f rd) as [w|] eqn:Ec.
    + destruct (col_pos_has df f HC) as (j & Ej & _). destruct (col_pos_spec _ _ _ Ej) as (c & Hc & Ecf). unfold cell in Ec. rewrite Ej in Ec.
      destruct V as (k & d & Hd & Edf & Hv). assert (j = k) as <-; [|congruence]. eapply D; eauto. rewrite (py_eq_rewrite _ _ _ Ecf). rewrite py_eq_sym; auto.
    + destruct (cell_some df f rd W HC) as (w & Ew); [eapply nth_error_In; eauto|congruence].
  - assert (N : nth_error (frows df) i = None). { apply nth_error_None in Ev. apply nth_error_None. lia. }
    rewrite N. reflexivity.
Qed.

(** fit, split at preprocessing *)
Definition fit_nbins (cl : clf) (kw : list (param * pvalue)) : option Z := h_nbins (c_hyper (set_fit_params cl kw)).
Definition fit_pre (w : world) (cl : clf) X y cf pc names kw := preprocess_training (w_cut w) (fit_nbins cl kw) X y cf pc names.

Lemma fit_cong w cl X y cf names X' y' cf' names' pc init cnopt kw :
  fit_pre w cl X y cf pc names kw = fit_pre w cl X' y' cf' pc names' kw ->
  fit w cl X y cf pc names init cnopt kw = fit w cl X' y' cf' pc names' init cnopt kw.
Proof.
  unfold fit_pre, fit_nbins, fit. intros E. destruct (c_alg cl).
  - destruct (irep_start init) as [x|er]; auto. unfold irep_fit. rewrite E. reflexivity.
  - unfold ripper_fit. rewrite E. reflexivity.
Qed.
Lemma fit_pre_err w cl X y cf pc names cnopt kw e : fit_pre w cl X y cf pc names kw = Err e ->
  snd (fit w cl X y cf pc names MNone cnopt kw) = Err e.
Proof.
  unfold fit_pre, fit_nbins, fit. intros E. destruct (c_alg cl).
  - cbn [irep_start falsy]. unfold irep_fit. cbn [irep_start falsy]. rewrite E. reflexivity.
  - unfold ripper_fit. rewrite E. reflexivity.
Qed.
Lemma recal_attrs cl X y names ms rm d cl' o : clf_recalibrate cl X y names ms rm d = (cl', o) ->
  c_cf cl' = c_cf cl /\ c_pc cl' = c_pc cl /\ c_bt cl' = c_bt cl /\ c_sel cl' = c_sel cl /\ c_feats cl' = c_feats cl /\
  c_alg cl' = c_alg cl /\ c_hyper cl' = c_hyper cl /\ c_classes cl' = c_classes cl.
Proof.
  unfold clf_recalibrate. intros H. destruct (c_cf cl) eqn:E1, (c_pc cl) eqn:E2; try (injection H as <- _; repeat split; auto; fail).
  destruct (if d then _ else _); [|injection H as <- _; repeat split; auto].
  destruct (preprocess_recalibrate _ _ _ _ _); [|injection H as <- _; repeat split; auto].
  destruct (c_rs cl); [|injection H as <- _; repeat split; auto].
  destruct (recalibrate_run _ _ _ _ _ _ _) as [x' o']. injection H as <- _. unfold set_rs. cbn. repeat split; auto.
Qed.
(** what a successful fit did *)
Lemma fit_inv w cl X y cf pc names init cnopt kw cl' : fit w cl X y cf pc names init cnopt kw = (cl', Ok tt) ->
  exists df f p bt, fit_pre w cl X y cf pc names kw = Ok (df, f, p, bt) /\
    c_cf cl' = Some f /\ c_pc cl' = Some p /\ c_bt cl' = Some bt /\ c_alg cl' = c_alg cl /\ c_hyper cl' = c_hyper (set_fit_params cl kw).
Proof.
  unfold fit_pre, fit_nbins, fit. destruct (c_alg cl) eqn:EA.
  - destruct (irep_start init) as [x0|er] eqn:EI; [|discriminate]. unfold irep_fit. rewrite EI.
    destruct (preprocess_training _ _ _ _ _ _ _) as [[[[df f] p] bt]|]; [|discriminate].
    destruct (bind _ _) as [x1|]; [|discriminate]. destruct (cols_without df f) as [feats|]; [|discriminate].
    destruct (clf_recalibrate _ _ _ _ _ _ _) as [cl5 o] eqn:ER. apply recal_attrs in ER. destruct ER as (R1 & R2 & R3 & _ & _ & R6 & R7 & _).
    destruct o; [|discriminate]. destruct (c_rs _); [|discriminate]. intros H. injection H as <-.
    exists df, f, p, bt. cbn. cbn in R1, R2, R3, R6, R7. rewrite R1, R2, R3, R6, R7. repeat split; auto.
  - unfold ripper_fit. destruct (preprocess_training _ _ _ _ _ _ _) as [[[[df f] p] bt]|]; [|discriminate].
    destruct (match frommodel init with Ok _ => _ | Err _ => _ end) as [lf [x1|]]; [|discriminate]. destruct (cols_without df f) as [feats|]; [|discriminate].
    destruct (clf_recalibrate _ _ _ _ _ _ _) as [cl5 o] eqn:ER. apply recal_attrs in ER. destruct ER as (R1 & R2 & R3 & _ & _ & R6 & R7 & _).
    destruct o; [|discriminate]. intros H. injection H as <-.
    exists df, f, p, bt. cbn. cbn in R1, R2, R3, R6, R7. rewrite R1, R2, R3, R6, R7. repeat split; auto.
Qed.

(** the labelled frame is what fit learns from *)
Lemma pre_labelled w cl X y cf pc names kw fr f : table_of X names fr -> frows fr <> [] -> good_frame fr -> series_ok y ->
  length (y_vals y) = length (frows fr) -> py_eq f f = true -> names_class cf y f ->
  exists df, good_frame df /\ labelled fr (y_vals y) f (label_index y fr) df /\
    fit_pre w cl X (Some y) cf pc names kw = fit_pre w cl (DFrame df) None (Some f) pc None kw /\
    fit_pre w cl X (Some y) cf pc names kw =
      (p <- get_pos_class (y_vals y) pc ;; ' (bt, df') <- fit_transform (w_cut w) (fit_nbins cl kw) df [f] ;; Ok (df', f, p, bt)).
Proof.
  intros T NE G S L FF NC. destruct (training_df_spec X names fr y f T G S L FF) as (df & TD & GD & LD).
  destruct (labelled_column _ _ _ _ _ LD L GD FF) as [HC CD].
  assert (LX : data_len X <> 0). { rewrite (table_len _ _ _ T). destruct (frows fr); [congruence|discriminate]. }
  destruct (names_class_facts cf y f X names NC LX) as [N1 N2].
  exists df. split; auto. split; auto.
  assert (E1 : fit_pre w cl X (Some y) cf pc names kw =
      (p <- get_pos_class (y_vals y) pc ;; ' (bt, df') <- fit_transform (w_cut w) (fit_nbins cl kw) df [f] ;; Ok (df', f, p, bt))).
  { unfold fit_pre, preprocess_training. rewrite N2. cbn [bind]. rewrite N1, TD. cbn [bind]. rewrite CD. reflexivity. }
  split; auto. rewrite E1. unfold fit_pre, preprocess_training. unfold check_input. cbn [data_len known_names].
  destruct LD as (_ & LL & _). assert (Z : length (frows df) =? 0 = false). { apply Nat.eqb_neq. rewrite LL, <- (table_len _ _ _ T). auto. }
  rewrite Z. cbn [negb]. unfold has_col in HC. rewrite HC. cbn [bind class_feat_name]. unfold training_df. cbn [rename to_df bind]. rewrite CD. reflexivity.
Qed.

(** ** positive class inference *)
Lemma dedup_distinct seen vs : ForallOrdPairs (fun a b => uniq_eq a b = false) (dedup_by uniq_eq seen vs) /\
  forall a b, In a seen -> In b (dedup_by uniq_eq seen vs) -> uniq_eq a b = false.
Proof.
  revert seen. induction vs as [|x l IH]; cbn [dedup_by]; intros seen; [split; [constructor|contradiction]|].
  destruct (existsb (fun b => uniq_eq b x) seen) eqn:E; [apply IH|]. destruct (IH (seen ++ [x])) as [H1 H2]. split.
  - constructor; auto. apply Forall_forall. intros b Hb. apply H2; auto. apply in_or_app; right; left; auto.
  - intros a b Ha [<-|Hb].
    + apply Bool.not_true_iff_false. intros K. assert (existsb (fun b => uniq_eq b x) seen = true) by (apply existsb_exists; eauto). congruence.
    + apply H2; auto. apply in_or_app; auto.
Qed.
Lemma unique_distinct vs : ForallOrdPairs (fun a b => uniq_eq a b = false) (unique vs).
Proof. apply dedup_distinct. Qed.
Lemma unique_one vs a : one_label vs a -> exists b, unique vs = [b] /\ In b vs /\ same_label a b.
Proof.
  intros [I H]. destruct (unique_complete a vs I) as (u & Hu & Eu).
  assert (D := unique_distinct vs). destruct (unique vs) as [|x [|y t]] eqn:E; [contradiction| |].
  - assert (In x vs) by (apply unique_In; rewrite E; left; auto). exists x. auto.
  - exfalso. assert (X : In x vs) by (apply unique_In; rewrite E; left; auto). assert (Y : In y vs) by (apply unique_In; rewrite E; right; left; auto).
    assert (uniq_eq x y = true). { apply H in X, Y. unfold same_label in *. eapply uniq_eq_trans; [rewrite uniq_eq_sym; exact X|exact Y]. }
    inversion D as [|? ? F _]; subst. inversion F; subst. congruence.
Qed.
Lemma eq_uniq a b : py_eq a b = true -> uniq_eq a b = true.
Proof. unfold uniq_eq. intros ->. reflexivity. Qed.
Lemma zero_zero a b : is_zero a -> is_zero b -> uniq_eq a b = true.
Proof. unfold is_zero. intros A B. apply eq_uniq. eapply py_eq_trans; eauto. rewrite py_eq_sym; auto. Qed.
Lemma one_one a b : is_one a -> is_one b -> uniq_eq a b = true.
Proof. unfold is_one. intros A B. apply eq_uniq. eapply py_eq_trans; eauto. rewrite py_eq_sym; auto. Qed.
Lemma zero_not_one a : is_zero a -> is_one a -> False.
Proof. unfold is_zero, is_one. intros A B. rewrite py_eq_sym in A. assert (X : py_eq (PInt 0) (PInt 1) = true) by (eapply py_eq_trans; eauto). discriminate. Qed.
Lemma zero_num a : is_zero a -> exists x, num_of a = Some x /\ (x == 0)%Q.
Proof. unfold is_zero, py_eq. destruct a; cbn [num_of]; try discriminate; intros H; apply Qeq_bool_iff in H; eauto. Qed.
Lemma one_num a : is_one a -> exists x, num_of a = Some x /\ (x == 1)%Q.
Proof. unfold is_one, py_eq. destruct a; cbn [num_of]; try discriminate; intros H; apply Qeq_bool_iff in H; eauto. Qed.
Lemma num_not_text a x : num_of a = Some x -> is_text a = false.
Proof. destruct a; cbn; congruence. Qed.

Lemma pos_of_pair a b : is_zero a -> is_one b ->
  (if is_false a && py_eq b (PBool true) then Ok (PBool true) else if py_eq a (PInt 0) && py_eq b (PInt 1) then Ok (PInt 1) else Err NameError)
  = Ok (if is_false a then PBool true else PInt 1).
Proof.
  intros A B. assert (B' : py_eq b (PBool true) = true) by (eapply py_eq_trans; [exact B|reflexivity]). rewrite B'. unfold is_zero, is_one in A, B. rewrite A, B.
  destruct (is_false a); reflexivity.
Qed.
Lemma pos_binary vs : binary vs -> exists z, In z vs /\ is_zero z /\ get_pos_class vs None = Ok (if is_false z then PBool true else PInt 1).
Proof.
  intros (A & (z & Iz & Z) & (o & Io & O)).
  destruct (unique_complete z vs Iz) as (z' & Hz & Ez). destruct (unique_complete o vs Io) as (o' & Ho & Eo).
  assert (U : forall v, In v (unique vs) -> is_zero v \/ is_one v) by (intros v I; apply A, unique_In; auto).
  assert (Z' : is_zero z'). { destruct (U z' Hz) as [|X]; auto. exfalso. unfold uniq_eq in Ez. apply Bool.orb_true_iff in Ez. destruct Ez as [Ez|Ez].
    - apply (zero_not_one z); auto. unfold is_one. eapply py_eq_trans; [rewrite py_eq_sym; exact Ez|exact X].
    - destruct z; cbn in *; try (rewrite Bool.andb_false_r in Ez); discriminate. }
  assert (O' : is_one o'). { destruct (U o' Ho) as [X|]; auto. exfalso. unfold uniq_eq in Eo. apply Bool.orb_true_iff in Eo. destruct Eo as [Eo|Eo].
    - apply (zero_not_one o); auto. unfold is_zero. eapply py_eq_trans; [rewrite py_eq_sym; exact Eo|exact X].
    - destruct o; cbn in *; try (rewrite Bool.andb_false_r in Eo); discriminate. }
  assert (D := unique_distinct vs). assert (Izv : In z' vs) by (apply unique_In; auto).
  unfold get_pos_class. destruct (zero_num z' Z') as (x & Ex & Qx). destruct (one_num o' O') as (y & Ey & Qy).
  destruct (unique vs) as [|a [|b [|c t]]].
  - contradiction.
  - exfalso. destruct Hz as [->|[]], Ho as [->|[]]. eapply zero_not_one; eauto.
  - destruct Hz as [->|[->|[]]], Ho as [->|[->|[]]]; try (exfalso; eapply zero_not_one; eauto; fail); exists z'; split; auto; split; auto.
    + rewrite (num_not_text _ _ Ex), (num_not_text _ _ Ey). cbn [xorb]. unfold val_le. rewrite Ex, Ey.
      assert (Qle_bool x y = true) as ->. { apply Qle_bool_iff. rewrite Qx, Qy. discriminate. } apply pos_of_pair; auto.
    + rewrite (num_not_text _ _ Ex), (num_not_text _ _ Ey). cbn [xorb]. unfold val_le. rewrite Ex, Ey.
      assert (Qle_bool y x = false) as ->. { apply Bool.not_true_iff_false. rewrite Qle_bool_iff, Qx, Qy. intros K. apply K. reflexivity. }
      apply pos_of_pair; auto.
  - exfalso. inversion D as [|? ? F1 D1]; subst. inversion D1 as [|? ? F2 _]; subst. rewrite Forall_forall in F1, F2.
    assert (X1 : uniq_eq a b = false) by (apply F1; left; auto). assert (X2 : uniq_eq a c = false) by (apply F1; right; left; auto).
    assert (X3 : uniq_eq b c = false) by (apply F2; left; auto).
    destruct (U a) as [Ua|Ua], (U b) as [Ub|Ub], (U c) as [Uc|Uc]; try (cbn; auto; fail);
      try (rewrite zero_zero in X1 by auto; discriminate); try (rewrite one_one in X1 by auto; discriminate);
      try (rewrite zero_zero in X2 by auto; discriminate); try (rewrite one_one in X2 by auto; discriminate);
      try (rewrite zero_zero in X3 by auto; discriminate); try (rewrite one_one in X3 by auto; discriminate).
Qed.
Lemma pos_one vs a : one_label vs a -> exists b, In b vs /\ same_label a b /\
  get_pos_class vs None = Ok (if is_false b then PBool true else if py_eq b (PInt 0) then PInt 1 else b).
Proof.
  intros H. destruct (unique_one vs a H) as (b & E & I & S). exists b. split; auto. split; auto. unfold get_pos_class. rewrite E.
  destruct (is_false b); auto. destruct (py_eq b (PInt 0)); auto.
Qed.
Lemma pos_other vs : vs <> [] -> ~ binary vs -> (forall a, ~ one_label vs a) ->
  get_pos_class vs None = Err NameError \/ get_pos_class vs None = Err TypeError.
Proof.
  intros NE NB NO. unfold get_pos_class.
  assert (C : forall v, In v vs -> exists u, In u (unique vs) /\ uniq_eq u v = true) by (intros; apply unique_complete; auto).
  assert (UI : forall v, In v (unique vs) -> In v vs) by (intros; apply unique_In; auto).
  destruct (unique vs) as [|a [|b [|c t]]]; auto.
  - exfalso. destruct vs as [|v vs]; [congruence|]. destruct (C v) as (u & [] & _). left; auto.
  - exfalso. apply (NO a). split; [apply UI; left; auto|]. intros v I. destruct (C v I) as (u & [<-|[]] & E). exact E.
  - destruct (xorb (is_text a) (is_text b)); auto. left.
    assert (K : forall a b, In a vs -> In b vs -> (forall v, In v vs -> uniq_eq a v = true \/ uniq_eq b v = true) -> is_zero a -> is_one b -> False).
    { intros a0 b0 Ia Ib Cov Za Ob. apply NB. split; [|split; eauto]. intros v I. destruct (Cov v I) as [E|E]; unfold uniq_eq in E; apply Bool.orb_true_iff in E; destruct E as [E|E].
      - left. unfold is_zero. eapply py_eq_trans; [rewrite py_eq_sym; exact E|exact Za].
      - exfalso. destruct a0; cbn in E, Za; try discriminate.
      - right. unfold is_one. eapply py_eq_trans; [rewrite py_eq_sym; exact E|exact Ob].
      - exfalso. destruct b0; cbn in E, Ob; try discriminate. }
    assert (Cab : forall v, In v vs -> uniq_eq a v = true \/ uniq_eq b v = true).
    { intros v I. destruct (C v I) as (u & [<-|[<-|[]]] & E); auto. }
    assert (Ia : In a vs) by (apply UI; left; auto). assert (Ib : In b vs) by (apply UI; right; left; auto).
    assert (FZ : forall x, is_false x = true -> is_zero x) by (intros [| |[]| |]; cbn; try discriminate; reflexivity).
    assert (TO : forall x, py_eq x (PBool true) = true -> is_one x) by (intros x E; eapply py_eq_trans; [exact E|reflexivity]).
    destruct (val_le a b).
    + destruct (is_false a && py_eq b (PBool true)) eqn:E1; [exfalso; apply andb_prop in E1; apply (K a b); auto; apply FZ || apply TO; tauto|].
      destruct (py_eq a (PInt 0) && py_eq b (PInt 1)) eqn:E2; [exfalso; apply andb_prop in E2; apply (K a b); auto; tauto|auto].
    + destruct (is_false b && py_eq a (PBool true)) eqn:E1; [exfalso; apply andb_prop in E1; apply (K b a); auto; try (apply FZ; tauto); try (apply TO; tauto); intros v I; destruct (Cab v I); auto|].
      destruct (py_eq b (PInt 0) && py_eq a (PInt 1)) eqn:E2; [exfalso; apply andb_prop in E2; apply (K b a); auto; try tauto; intros v I; destruct (Cab v I); auto|auto].
Qed.

Lemma col_values fr f vs : good_frame fr -> column_present fr f -> column_values fr f vs -> has_col fr f = true /\ column fr f = vs.
Proof.
  intros [W D] (c & I & E) [L V]. assert (HC : has_col fr f = true) by (apply existsb_exists; eauto). split; auto.
  rewrite column_map by auto. apply nth_ext_eq. intros i. rewrite nth_error_map. destruct (nth_error vs i) as [v|] eqn:Ev.
  - assert (J : i < length (frows fr)) by (rewrite <- L; apply nth_error_Some; congruence).
    destruct (nth_error (frows fr) i) as [rd|] eqn:Ed; [|apply nth_error_None in Ed; lia]. cbn [option_map]. f_equal. unfold cell_or.
    destruct (cell (fcols fr) f rd) as [w|] eqn:Ec.
    + destruct (col_pos_has fr f HC) as (j & Ej & _). destruct (col_pos_spec _ _ _ Ej) as (c' & Hc & Ecf). unfold cell in Ec. rewrite Ej in Ec.
      destruct (V i rd v Ed Ev) as (k & d & Hd & Edf & Hv). assert (j = k) as <-; [|congruence]. eapply D; eauto. rewrite (py_eq_rewrite _ _ _ Ecf). rewrite py_eq_sym; auto.
    + destruct (cell_some fr f rd W HC) as (w & Ew); [eapply nth_error_In; eauto|congruence].
  - assert (N : nth_error (frows fr) i = None). { apply nth_error_None in Ev. apply nth_error_None. lia. } rewrite N. reflexivity.
Qed.
Lemma input_pre X y cf names f vs ix : training_input X y cf names f vs ix -> exists df,
  good_frame df /\ has_col df f = true /\ column df f = vs /\ labels (frows df) = ix /\ frows df <> [] /\ training_df X y f names = Ok df /\
  forall w cl pc kw, fit_pre w cl X y cf pc names kw =
    (p <- get_pos_class vs pc ;; ' (bt, df') <- fit_transform (w_cut w) (fit_nbins cl kw) df [f] ;; Ok (df', f, p, bt)).
Proof.
  intros H. destruct H as [fr -> -> T G NE CP CV ->|y' fr -> NC FF T G NE S -> L ->].
  - destruct (col_values fr f vs G CP CV) as [HC CD]. exists fr. split; auto. split; auto. split; auto. split; auto. split; auto.
    assert (TD : training_df X None f names = Ok fr) by (unfold training_df; rewrite (table_rename _ _ _ T); reflexivity).
    split; auto. intros w cl pc kw. unfold fit_pre, preprocess_training, check_input.
    assert (Z : data_len X =? 0 = false). { apply Nat.eqb_neq. rewrite (table_len _ _ _ T). destruct (frows fr); [congruence|discriminate]. }
    rewrite Z. cbn [negb]. rewrite (table_names _ _ _ T). unfold has_col in HC. rewrite HC. cbn [bind class_feat_name]. rewrite TD. cbn [bind]. rewrite CD. reflexivity.
  - destruct (training_df_spec X names fr y' f T G S L FF) as (df & TD & GD & LD).
    destruct (labelled_column _ _ _ _ _ LD L GD FF) as [HC CD].
    exists df. split; auto. split; auto. split; auto. destruct LD as (LI & LL & _). split; auto. split.
    { intros X0. rewrite X0 in LL. cbn in LL. destruct (frows fr); [congruence|discriminate]. }
    split; auto. intros w cl pc kw. assert (LX : data_len X <> 0). { rewrite (table_len _ _ _ T). destruct (frows fr); [congruence|discriminate]. }
    destruct (names_class_facts cf y' f X names NC LX) as [N1 N2].
    unfold fit_pre, preprocess_training. rewrite N2. cbn [bind]. rewrite N1, TD. cbn [bind]. rewrite CD. reflexivity.
Qed.
