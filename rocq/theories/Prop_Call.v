(** * Prop_Call.v : C78 -- the form in which the training data are passed does not matter *)
From Verif Require Import CallSpec CallForm TrainSpec TrainView ClfFacts FitFacts FitRun PrepFacts Prop_Fit Prop_Helpers Demo.
Open Scope nat_scope.

Lemma filter_all {A} (p : A -> bool) l : (forall x, In x l -> p x = true) -> filter p l = l.
Proof. induction l as [|a l IH]; intros H; cbn [filter]; [auto|]. rewrite (H a) by (left; auto). f_equal. apply IH. intros; apply H; right; auto. Qed.
Lemma cols_filter cols f j : distinct_cols cols -> col_pos cols f = Some j -> filter (fun c => negb (py_eq c f)) cols = remove_nth j cols.
Proof.
  intros D. revert j. induction cols as [|c t IH]; intros j J; [discriminate|]. cbn [col_pos] in J. cbn [filter]. destruct (py_eq c f) eqn:E.
  - injection J as <-. cbn [negb remove_nth]. apply filter_all. intros d I. apply Bool.negb_true_iff. apply Bool.not_true_iff_false. intros K.
    apply In_nth_error in I. destruct I as (i & I). assert (X : 0 = S i); [|discriminate]. apply (D 0 (S i) c d); auto. rewrite py_eq_sym in K. eapply py_eq_trans; eauto.
  - destruct (col_pos t f) as [j'|]; [|discriminate]. injection J as <-. cbn [negb remove_nth]. f_equal. apply IH; auto. intros i k a b A B K. specialize (D (S i) (S k) a b A B K). lia.
Qed.
Lemma cells_filter cols f j (l : list pyval) : length l = length cols -> distinct_cols cols -> col_pos cols f = Some j ->
  map snd (filter (fun p => negb (py_eq (fst p) f)) (combine cols l)) = remove_nth j l.
Proof.
  intros L D. revert j l L. induction cols as [|c t IH]; intros j [|v l] L J; try discriminate. cbn [col_pos] in J. cbn [combine filter fst]. destruct (py_eq c f) eqn:E.
  - injection J as <-. cbn [negb remove_nth]. rewrite filter_all.
    + clear -L. cbn in L. injection L as L. revert t L. induction l as [|u l IH]; intros [|d t] L; try discriminate; cbn; [auto|]. f_equal. apply IH. cbn in L. lia.
    + intros [d x] I. apply in_combine_l in I. apply Bool.negb_true_iff. apply Bool.not_true_iff_false. cbn [fst]. intros K.
      apply In_nth_error in I. destruct I as (i & I). assert (X : 0 = S i); [|discriminate]. apply (D 0 (S i) c d); auto. rewrite py_eq_sym in K. eapply py_eq_trans; eauto.
  - destruct (col_pos t f) as [j'|]; [|discriminate]. injection J as <-. cbn [negb remove_nth map snd]. f_equal. apply IH; auto. intros i k a b A B K. specialize (D (S i) (S k) a b A B K). lia.
Qed.
Lemma cells_filter_none cols f (l : list pyval) : length l = length cols -> existsb (fun c => py_eq c f) cols = false ->
  map snd (filter (fun p => negb (py_eq (fst p) f)) (combine cols l)) = l.
Proof.
  revert l. induction cols as [|c t IH]; intros [|v l] L N; try discriminate; [reflexivity|]. cbn [existsb] in N. apply Bool.orb_false_iff in N. destruct N as [N1 N2].
  cbn [combine filter fst]. rewrite N1. cbn [negb map snd]. f_equal. apply IH; auto.
Qed.
Lemma cols_filter_none cols f : existsb (fun c => py_eq c f) cols = false -> filter (fun c => negb (py_eq c f)) cols = cols.
Proof. intros N. apply filter_all. intros c I. apply Bool.negb_true_iff. apply Bool.not_true_iff_false. intros K. assert (X : existsb (fun c => py_eq c f) cols = true) by (apply existsb_exists; eauto). congruence. Qed.

(** the features of the labelled training table, whatever the call form *)
Definition features_of (f : pyval) (fr : frame) (ix : list nat) : frame :=
  mkframe (feature_columns f fr) (map (fun p => mkrow (fst p) (snd p)) (combine ix (map (feature_cells f fr) (frows fr)))).
Lemma drop_features f fr : good_frame fr -> has_col fr f = true -> drop_col fr f = Ok (features_of f fr (labels (frows fr))).
Proof.
  intros [W D] H. destruct (col_pos_has fr f H) as (j & J & _). unfold drop_col, features_of, feature_columns. rewrite J, (cols_filter _ _ _ D J). do 2 f_equal. unfold labels.
  assert (W' : forall r, In r (frows fr) -> length (rcells r) = length (fcols fr)) by apply W. clear W. induction (frows fr) as [|r l IH]; [reflexivity|].
  cbn [map combine]. f_equal; [|apply IH; intros; apply W'; right; auto]. cbn [fst snd]. unfold feature_cells. rewrite (cells_filter _ _ j); auto. apply W'. left; auto.
Qed.
Lemma remove_last {A} (l : list A) x : remove_nth (length l) (l ++ [x]) = l.
Proof. induction l as [|a l IH]; cbn; [auto|f_equal; auto]. Qed.
Lemma remove_set_same {A} j (v : A) l : remove_nth j (set_nth j v l) = remove_nth j l.
Proof. revert j. induction l as [|a l IH]; intros [|j]; cbn; auto. f_equal. auto. Qed.
Lemma col_pos_last cols f : existsb (fun c => py_eq c f) cols = false -> py_eq f f = true -> col_pos (cols ++ [f]) f = Some (length cols).
Proof. intros N F. induction cols as [|c t IH]; cbn [app col_pos length]; [rewrite F; auto|]. cbn [existsb] in N. apply Bool.orb_false_iff in N. destruct N as [-> N]. rewrite (IH N). reflexivity. Qed.
Lemma drop_put f fr vs : good_frame fr -> py_eq f f = true -> length vs = length (frows fr) ->
  drop_col (put_col fr f vs) f = Ok (features_of f fr (labels (frows fr))).
Proof.
  intros G FF L. unfold put_col. destruct (has_col fr f) eqn:H.
  - rewrite <- drop_features by auto. destruct (col_pos_has fr f H) as (j & J & _). unfold set_col, drop_col. rewrite J. cbn [with_rows fcols frows]. rewrite J. do 2 f_equal.
    clear -L. revert vs L. induction (frows fr) as [|r l IH]; intros [|v vs] L; try discriminate; cbn [map combine]; [auto|]. f_equal; [|apply IH; cbn in L; lia].
    cbn [fst snd rlab rcells]. rewrite remove_set_same. reflexivity.
  - unfold drop_col. cbn [fcols frows]. unfold has_col in H. rewrite (col_pos_last _ _ H FF), remove_last. unfold features_of, feature_columns. rewrite (cols_filter_none _ _ H). do 2 f_equal.
    destruct G as [W _]. assert (W' : forall r, In r (frows fr) -> length (rcells r) = length (fcols fr)) by apply W. clear W. unfold labels.
    revert vs L. induction (frows fr) as [|r l IH]; intros [|v vs] L; try discriminate; cbn [map combine]; [auto|]. f_equal; [|apply IH; [intros; apply W'; right; auto|cbn in L; lia]].
    assert (WR : length (rcells r) = length (fcols fr)) by (apply W'; left; auto).
    cbn [fst snd rlab rcells]. unfold feature_cells. rewrite (cells_filter_none _ _ _ WR H). rewrite <- WR, remove_last. reflexivity.
Qed.
Lemma features_index f fr ix : length ix = length (frows fr) -> features_of f (set_index fr ix) (labels (frows (set_index fr ix))) = features_of f fr ix.
Proof.
  intros L. destruct (set_index_spec fr ix L) as (A & B & C). unfold features_of, feature_columns. rewrite B, A. do 3 f_equal.
  assert (E : forall r, feature_cells f (set_index fr ix) r = feature_cells f fr r) by (intros; unfold feature_cells; rewrite A; auto).
  rewrite (map_ext _ _ E). unfold feature_cells. rewrite <- !(map_map rcells (fun l => map snd (filter (fun p => negb (py_eq (fst p) f)) (combine (fcols fr) l)))). rewrite C. reflexivity.
Qed.
Lemma raw_drop X y cf names f vs ix fr df : training_input X y cf names f vs ix -> table_of X names fr -> training_df X y f names = Ok df ->
  drop_col df f = Ok (features_of f fr ix).
Proof.
  intros T TB TD. destruct T as [fr' EY ECF T G NE CP CV EIX|y' fr' EY NC FF T G NE S EV L EIX]; assert (fr' = fr) by (eapply table_fun; eauto); subst fr' y ix;
    unfold training_df in TD; rewrite (table_rename _ _ _ TB) in TD; cbn [bind] in TD.
  - injection TD as <-. destruct CP as (c & I & E). apply drop_features; [auto|]. apply has_col_iff. exists c. split; auto.
  - subst vs. destruct y' as [n ix vals|vals]; cbn [attach_labels y_vals label_index series_ok] in *.
    + rewrite S, L, Nat.eqb_refl in TD. injection TD as <-. assert (LI : length ix = length (frows fr)) by congruence. rewrite drop_put; auto.
      * rewrite features_index; auto.
      * apply set_index_good; auto.
      * destruct (set_index_spec fr ix LI) as (A & B & C). apply (f_equal (@length _)) in C. rewrite !map_length in C. congruence.
    + rewrite L, Nat.eqb_refl in TD. injection TD as <-. apply drop_put; auto.
Qed.

(** C78. fit depends on the features, the labels, the index and the class column's name only: two calls that agree on these -- with
    the labels in a column of the table, wherever it stands, or given apart as a list, an array or a Series; with a DataFrame or
    rows and feature_names -- do the same in every respect: same error or same resulting classifier (rules, statistics, bins,
    positive class, feature lists). For IREP and RIPPER, any hyperparameters, initial model, engine and random choices. *)
Theorem C78_call_form : forall X y cf names X' y' cf' names' f vs ix fr fr',
  training_input X y cf names f vs ix -> training_input X' y' cf' names' f vs ix ->
  table_of X names fr -> table_of X' names' fr' -> features_agree f fr fr' ->
  forall w cl pc init cnopt kw, fit w cl X y cf pc names init cnopt kw = fit w cl X' y' cf' pc names' init cnopt kw.
Proof.
  intros X y cf names X' y' cf' names' f vs ix fr fr' T T' TB TB' (FA & FB) w cl pc init cnopt kw. apply (fit_rel _ _ _ _ _ _ _ _ _ _ _ _ _ _ f).
  destruct (input_pre _ _ _ _ _ _ _ T) as (a & Ga & Ha & Ca & La & NEa & TDa & Pa). destruct (input_pre _ _ _ _ _ _ _ T') as (b & Gb & Hb & Cb & Lb & NEb & TDb & Pb).
  rewrite Pa, Pb. destruct (get_pos_class vs pc) as [p|]; cbn [bind pre_rel]; [|reflexivity].
  assert (SV : same_view f a b).
  { constructor; auto; [|congruence]. exists (features_of f fr ix). split; [apply (raw_drop _ _ _ _ _ _ _ _ _ T TB TDa)|]. rewrite (raw_drop _ _ _ _ _ _ _ _ _ T' TB' TDb). unfold features_of. rewrite FA, FB. reflexivity. }
  pose proof (sv_fit_transform f (w_cut w) (fit_nbins cl kw) a b SV) as FR. destruct (fit_transform (w_cut w) (fit_nbins cl kw) a [f]) as [[bt x]|] eqn:EA, (fit_transform (w_cut w) (fit_nbins cl kw) b [f]) as [[bt' x']|]; cbn [frel2] in FR; try contradiction; cbn [bind]; [|auto].
  destruct FR as (-> & SV'). do 5 (split; auto).
  intros Z. unfold fit_transform in EA. binv EA. binv EA. injection EA as -> ->.
  assert (LEN : length (frows x) = length (frows a)); [|rewrite Z in LEN; destruct (frows a); [congruence|discriminate]].
  clear -E0 Ga. unfold transform in E0. destruct (bt_bins bt') as [bins|]; [|discriminate]. binv E0. clear E. revert a Ga E0.
  induction bins as [|[g bs] t IH]; intros a Ga H; cbn [transform_cols] in H; [injection H as <-; auto|]. destruct (has_col a g && _) eqn:HC; [|apply (IH a); auto].
  apply andb_prop in HC. destruct HC as [HC _]. binv H. destruct (transform_feat_ok _ _ _ _ _ E) as [L _]. rewrite column_length in L by (auto; apply Ga).
  destruct (set_col_spec a g _ (proj1 Ga) HC L) as (S1 & S2 & S3 & _). rewrite (IH (set_col a g v0)); auto; [|split; [auto|rewrite S1; apply Ga]].
  apply (f_equal (@length nat)) in S2. unfold labels in S2. rewrite !map_length in S2. auto.
Qed.

(** the class column of a DataFrame, or the rest of the DataFrame and the labels as a list, an array or a named Series *)
Theorem C78_column_or_labels : forall fr f vs rest,
  good_frame fr -> frows fr <> [] -> column_present fr f -> column_values fr f vs ->
  good_frame rest -> labels (frows rest) = labels (frows fr) -> features_agree f rest fr ->
  forall w cl pc init cnopt kw,
    fit w cl (DFrame rest) (Some (YList vs)) (Some f) pc None init cnopt kw = fit w cl (DFrame fr) None (Some f) pc None init cnopt kw /\
    forall n, py_eq n f = true ->
    fit w cl (DFrame rest) (Some (YSeries (Some n) (labels (frows fr)) vs)) (Some f) pc None init cnopt kw = fit w cl (DFrame fr) None (Some f) pc None init cnopt kw.
Proof.
  intros fr f vs rest G NE CP CV GR LR FA w cl pc init cnopt kw. assert (FF : py_eq f f = true) by (destruct CP as (c & _ & E); eapply py_eq_refl_r; eauto).
  assert (LEN : length (frows rest) = length (frows fr)) by (apply (f_equal (@length nat)) in LR; unfold labels in LR; rewrite !map_length in LR; auto).
  assert (NER : frows rest <> []) by (intros Z; rewrite Z in LEN; destruct (frows fr); [congruence|discriminate]).
  assert (T : training_input (DFrame fr) None (Some f) None f vs (labels (frows fr))) by (apply (input_column _ _ _ _ _ _ _ fr); auto; constructor).
  destruct CV as [LV _]. split; [|intros n N].
  - apply (C78_call_form _ _ _ _ _ _ _ _ f vs (labels (frows fr)) rest fr); auto; try constructor. apply (input_labels _ _ _ _ _ _ _ (YList vs) rest); auto; try constructor; [|congruence].
    exact (names_given_list (Some f) (YList vs) f vs eq_refl eq_refl).
  - apply (C78_call_form _ _ _ _ _ _ _ _ f vs (labels (frows fr)) rest fr); auto; try constructor.
    apply (input_labels _ _ _ _ _ _ _ (YSeries (Some n) (labels (frows fr)) vs) rest); auto; try constructor; cbn [y_vals series_ok label_index]; auto; [|unfold labels; rewrite map_length; congruence|congruence].
    exact (names_given_series (Some f) _ f n _ vs eq_refl eq_refl N).
Qed.

(** the table of the examples with the class column in front, against rows, feature names and a Series *)
Definition people_df : frame :=
  mkframe [s_ "t"; s_ "u"; s_ "v"] (map (fun p => mkrow (fst (fst p)) (snd (fst p) :: snd p)) (combine (combine [10; 11; 12; 13; 14; 15] (y_vals people_y)) people)).
Definition people_rest : frame := mkframe [s_ "u"; s_ "v"] (map (fun p => mkrow (fst p) (snd p)) (combine [10; 11; 12; 13; 14; 15] people)).
Lemma people_df_good : good_frame people_df. Proof. apply good_frameb_ok. vm_compute. reflexivity. Qed.
Lemma people_rest_good : good_frame people_rest. Proof. apply good_frameb_ok. vm_compute. reflexivity. Qed.
Lemma people_df_column : column_present people_df (s_ "t") /\ column_values people_df (s_ "t") (y_vals people_y).
Proof.
  split; [exists (s_ "t"); split; [left; reflexivity|reflexivity]|]. split; [reflexivity|]. intros i rw v H1 H2.
  do 6 (destruct i as [|i]; [injection H1 as <-; injection H2 as <-; exists 0, (s_ "t"); repeat split; reflexivity|]). destruct i; discriminate.
Qed.
Example C78_nonvacuous :
  (forall w cl pc init cnopt kw,
     fit w cl (DRows people) (Some people_y) None pc (Some [s_ "u"; s_ "v"]) init cnopt kw =
     fit w cl (DFrame people_df) None (Some (s_ "t")) pc None init cnopt kw) /\
  option_map (fun x => map rule_str (rs_rules x)) (c_rs (fst (fit w1 irep_bins2 (DFrame people_df) None (Some (s_ "t")) None None MNone true []))) = Some [$"[v=>-1.0]"] /\
  features_agree (s_ "t") people_rest people_df /\ labels (frows people_rest) = labels (frows people_df).
Proof.
  split; [|split; [vm_compute; reflexivity|split; [split; reflexivity|reflexivity]]].
  destruct people_df_column as [CP CV].
  apply (C78_call_form _ _ _ _ _ _ _ _ (s_ "t") (y_vals people_y) [10; 11; 12; 13; 14; 15] people_fr people_df).
  - exact people_input.
  - apply (input_column _ _ _ _ _ _ _ people_df); auto; [constructor|exact people_df_good|discriminate].
  - apply (table_rows_named people 2 people_fr); auto; [discriminate|]. intros r I. repeat (destruct I as [<-|I]; [reflexivity|]). destruct I.
  - constructor.
  - split; reflexivity.
Qed.
Print Assumptions C78_call_form.
