(** * TrainView.v : the table a model is learned from, in terms of the user's data *)
From Verif Require Import TrainSpec ClfFacts FitFacts FitRun PrepFacts Prop_Fit Prop_FitModel.
Open Scope nat_scope.

Record seen_by (bt : bin_transformer) (f : pyval) (fr : frame) (vs : list pyval) (df : frame) : Prop := mkseen {
  sb_len : length (frows df) = length (frows fr);
  sb_vs : length vs = length (frows fr);
  sb_cols : forall g, py_eq f g = false -> (column_present df g <-> column_present fr g);
  sb_names : forall c, In c (fcols df) -> py_eq c f = true \/ In c (fcols fr);
  sb_cells : forall i rx rd, nth_error (frows fr) i = Some rx -> nth_error (frows df) i = Some rd ->
    forall g w, py_eq f g = false -> (value_at (fcols df) rd g w <-> sees bt (fcols fr) rx g w);
  sb_class : forall i rd v, nth_error (frows df) i = Some rd -> nth_error vs i = Some v -> value_at (fcols df) rd f v }.

Lemma table_fun X names fr fr' : table_of X names fr -> table_of X names fr' -> fr = fr'.
Proof. intros A B. apply table_rename in A. apply table_rename in B. congruence. Qed.
Lemma put_col_names fr f vs : py_eq f f = true -> forall c, In c (fcols (put_col fr f vs)) -> py_eq c f = true \/ In c (fcols fr).
Proof.
  intros FF c. unfold put_col. destruct (has_col fr f); [unfold set_col; destruct (col_pos (fcols fr) f); cbn [fcols]; auto|].
  cbn [fcols]. intros I. apply in_app_or in I. destruct I as [I|[<-|[]]]; auto.
Qed.
Lemma column_value_at df f vs : good_frame df -> has_col df f = true -> column df f = vs ->
  forall i rd v, nth_error (frows df) i = Some rd -> nth_error vs i = Some v -> value_at (fcols df) rd f v.
Proof. intros G H <- i rd v N M. eapply value_column; eauto. Qed.

Lemma is_numeric_numbers vs : is_numeric_col vs = true -> forall v, In v vs -> number v.
Proof.
  unfold is_numeric_col. rewrite forallb_forall. intros H v I. specialize (H v I). unfold number. destruct v; try discriminate; eauto 6.
Qed.
(** the discretiser made by fit has bins for columns of numbers only, not for the class *)
Lemma fit_bins_for w cl X y cf pc names kw f vs ix df f' p bt df0 : world_ok w -> nbins_ok (h_nbins (hyper_of cl kw)) -> training_input X y cf names f vs ix ->
  fit_pre w cl X y cf pc names kw = Ok (df, f', p, bt) -> training_df X y f names = Ok df0 ->
  forall g b, bins_for bt g b -> py_eq f g = false /\ numeric_column df0 g.
Proof.
  intros [_ C] N T E TD0. destruct (input_pre _ _ _ _ _ _ _ T) as (df0' & G & HC & EC & EL & NE & TD & PR). rewrite TD0 in TD. injection TD as <-.
  rewrite PR in E. binv E. rename v into p', E0 into P. unfold fit_transform in E. assert (G' := G). destruct G as [W D].
  destruct (fit_bins_ok (w_cut w) (fit_nbins cl kw) df0 [f] C N D) as (bins & EB & DK & B). rewrite EB in E. cbn [bind] in E. binv E. binv E0. injection E0 as <-.
  injection E as _ _ _ <-. intros g b (bs & g' & X0 & I & Q). cbn [bt_bins] in X0. injection X0 as <-. destruct (B g' b I) as (I1 & NC & X1 & _).
  cbn [existsb] in X1. rewrite Bool.orb_false_r in X1. split.
  { apply Bool.not_true_iff_false. intros K. assert (py_eq f g' = true) by (eapply py_eq_trans; [exact K|rewrite py_eq_sym; exact Q]). congruence. }
  intros rw u Irw V. assert (CO : column df0 g' = column df0 g).
  { unfold column. apply flat_map_ext. intros r. unfold cell. rewrite (col_pos_py_eq (fcols df0) g' g Q). reflexivity. }
  rewrite CO in NC. apply (is_numeric_numbers _ NC). apply In_nth_error in Irw. destruct Irw as (i & Ni).
  assert (HG : has_col df0 g = true). { apply has_col_iff. exists g'. split; auto. }
  apply (value_column df0 g i rw u G' HG Ni) in V. eapply nth_error_In; eauto.
Qed.
Lemma sees_column bt cols rw g w : sees bt cols rw g w -> exists c, In c cols /\ py_eq c g = true.
Proof. intros (v & (j & c & N & E & _) & _). exists c. split; auto. eapply nth_error_In; eauto. Qed.
Lemma value_column_present fr rw g w : value_at (fcols fr) rw g w -> column_present fr g.
Proof. intros (j & c & N & E & _). exists c. split; auto. eapply nth_error_In; eauto. Qed.

(** the user's table and the table before binning *)
Lemma raw_view X y cf names f vs ix fr df0 : training_input X y cf names f vs ix -> table_of X names fr -> training_df X y f names = Ok df0 ->
  good_frame fr /\ frows fr <> [] /\ py_eq f f = true /\ length vs = length (frows fr) /\ length (frows df0) = length (frows fr) /\
  (forall g, py_eq f g = false -> (column_present df0 g <-> column_present fr g)) /\
  (forall c, In c (fcols df0) -> py_eq c f = true \/ In c (fcols fr)) /\
  forall i rx rd, nth_error (frows fr) i = Some rx -> nth_error (frows df0) i = Some rd ->
    forall g w, py_eq f g = false -> (value_at (fcols df0) rd g w <-> value_at (fcols fr) rx g w).
Proof.
  intros T TB TD. destruct T as [fr' EY ECF T G NE CP CV EIX|y' fr' EY NC FF T G NE S EV L EIX].
  - assert (fr' = fr) by (eapply table_fun; eauto). subst fr' y. unfold training_df in TD. rewrite (table_rename _ _ _ TB) in TD. cbn [bind] in TD. injection TD as <-.
    split; [auto|]. split; [auto|]. split. { destruct CP as (c & _ & Ec). eapply py_eq_refl_r; eauto. } split; [destruct CV; auto|]. split; [auto|]. split; [tauto|]. split; [auto|].
    intros i rx rd H1 H2. rewrite H1 in H2. injection H2 as <-. tauto.
  - assert (fr' = fr) by (eapply table_fun; eauto). subst fr' y vs.
    destruct (training_df_spec X names fr y' f T G S L FF) as (df & TD' & GD & LD). rewrite TD' in TD. injection TD as <-.
    destruct LD as (L1 & L2 & L3 & L4). split; [auto|]. split; [auto|]. split; [auto|]. split; [auto|]. split; [auto|]. split.
    { intros g N. rewrite L3. split; [intros [H|H]; auto; congruence|auto]. } split.
    + unfold training_df in TD'. rewrite (table_rename _ _ _ TB) in TD'. cbn [bind] in TD'. intros c I. clear -TD' I FF L S. unfold attach_labels in TD'. destruct y' as [n ix0 vals|vals]; cbn [y_vals series_ok] in *.
      * rewrite S, L, Nat.eqb_refl in TD'. injection TD' as <-. apply (put_col_names _ _ _ FF) in I. exact I.
      * rewrite L, Nat.eqb_refl in TD'. injection TD' as <-. apply (put_col_names _ _ _ FF) in I. exact I.
    + intros i rx rd H1 H2 g w N. destruct (nth_error (y_vals y') i) as [v|] eqn:EV.
      2:{ apply nth_error_None in EV. assert (i < length (frows fr)) by (apply nth_error_Some; congruence). lia. }
      destruct (L4 i rx v H1 EV) as (rd' & H3 & _ & H4). rewrite H2 in H3. injection H3 as <-. apply H4; auto.
Qed.

Lemma train_view w cl X y cf pc names kw f vs ix fr df f' p bt : world_ok w -> nbins_ok (h_nbins (hyper_of cl kw)) -> training_input X y cf names f vs ix -> NoDup ix ->
  table_of X names fr -> fit_pre w cl X y cf pc names kw = Ok (df, f', p, bt) ->
  good_frame fr /\ frows fr <> [] /\ seen_by bt f fr vs df /\ (forall g b, bins_for bt g b -> py_eq f g = false /\ numeric_column fr g).
Proof.
  intros WO NB T ND TB E. destruct (pre_good _ _ _ _ _ _ _ _ _ _ _ _ _ _ _ WO NB T ND E) as (-> & G & L & HC & NE & CV & df0 & TD & TR).
  assert (SB := fit_pre_sound _ _ _ _ _ _ _ _ _ _ _ _ _ _ _ WO NB T E).
  assert (BF := fit_bins_for _ _ _ _ _ _ _ _ _ _ _ _ _ _ _ _ WO NB T E TD).
  destruct (raw_view _ _ _ _ _ _ _ _ _ T TB TD) as (GF & NF & FF & LV & LR & PR & NM & CE).
  destruct (input_pre _ _ _ _ _ _ _ T) as (df0' & G0 & _ & _ & _ & NE0 & TD' & _). rewrite TD in TD'. injection TD' as <-.
  destruct (transform_shown bt df0 PNaN SB G0 NE0) as (df' & ET & _ & LD & FD & VD).
  { intros (c & _ & Ec). rewrite py_eq_nan_r in Ec. discriminate. }
  { intros g b H _ _. left. apply (BF g b H). }
  assert (df' = df).
  { destruct (bt_bool bt) eqn:Eb; [congruence|]. injection ET as <-. unfold transform in TR. destruct SB as [N|(bins & EB & _)].
    - rewrite N in TR. congruence.
    - unfold bt_bool in Eb. rewrite EB in *. destruct bins; [|discriminate]. cbn in TR. congruence. }
  subst df'. assert (LEN : length (frows df) = length (frows df0)) by (unfold labels in LD; apply (f_equal (@length nat)) in LD; rewrite !map_length in LD; auto).
  split; [auto|]. split; [auto|]. split.
  - constructor.
    + congruence.
    + auto.
    + intros g N. unfold column_present at 1. rewrite FD. apply PR; auto.
    + rewrite FD. exact NM.
    + intros i rx rd H1 H2 g v N. assert (J : i < length (frows df0)) by (rewrite LR; apply nth_error_Some; congruence).
      destruct (nth_error (frows df0) i) as [r0|] eqn:E0; [|apply nth_error_None in E0; lia].
      assert (CP : forall u, value_at (fcols fr) rx g u <-> value_at (fcols df0) r0 g u) by (intros u; symmetry; eapply CE; eauto).
      split.
      * intros V. assert (K := value_column_present _ _ _ _ V). unfold column_present in K. rewrite FD in K. apply (VD i r0 rd E0 H2 g v K) in V.
        destruct V as (u & V & SH). exists u. split; auto. apply CP; auto.
      * intros (u & V & SH). apply CP in V. assert (K := value_column_present _ _ _ _ V). apply (VD i r0 rd E0 H2 g v K). exists u. auto.
    + eapply column_value_at; eauto.
  - intros g b H. destruct (BF g b H) as [N NU]. split; auto. intros rx v I V. apply In_nth_error in I. destruct I as (i & Hi).
    assert (J : i < length (frows df0)) by (rewrite LR; apply nth_error_Some; congruence).
    destruct (nth_error (frows df0) i) as [r0|] eqn:E0; [|apply nth_error_None in E0; lia].
    eapply NU; [eapply nth_error_In; exact E0|]. eapply CE; eauto.
Qed.

(** prediction on data with the same features as the training data *)
Lemma same_sees bt f fr fr2 : same_data f fr fr2 -> forall i rx rx2, nth_error (frows fr) i = Some rx -> nth_error (frows fr2) i = Some rx2 ->
  forall g w, py_eq f g = false -> (sees bt (fcols fr) rx g w <-> sees bt (fcols fr2) rx2 g w).
Proof. intros (_ & _ & H) i rx rx2 H1 H2 g w N. unfold sees. split; intros (v & V & SH); exists v; split; auto; eapply H; eauto. Qed.
Lemma same_binnable bt f fr fr2 : same_data f fr fr2 -> (forall g b, bins_for bt g b -> py_eq f g = false /\ numeric_column fr g) -> binnable bt fr2 f.
Proof.
  intros (L & _ & H) B g b BF _ N. left. destruct (B g b BF) as [_ NU]. intros rx2 v I V. apply In_nth_error in I. destruct I as (i & Hi).
  destruct (nth_error (frows fr) i) as [rx|] eqn:E. 2:{ apply nth_error_None in E. assert (i < length (frows fr2)) by (apply nth_error_Some; congruence). lia. }
  eapply NU; [eapply nth_error_In; exact E|]. eapply H; eauto.
Qed.

Lemma raw_view_len X y cf names f vs ix fr : training_input X y cf names f vs ix -> table_of X names fr -> length vs = length (frows fr) /\ frows fr <> [].
Proof.
  intros T TB. destruct T as [fr' EY ECF T G NE CP CV EIX|y' fr' EY NC FF T G NE S EV L EIX];
    (assert (fr' = fr) by (eapply table_fun; eauto); subst fr'); split; auto. destruct CV; auto.
Qed.
Lemma nth_error_ext_eq {A} (l k : list A) : (forall i, nth_error l i = nth_error k i) -> l = k.
Proof.
  revert k. induction l as [|a l IH]; intros [|b k] H; auto; [specialize (H 0); discriminate|specialize (H 0); discriminate|].
  f_equal; [specialize (H 0); cbn in H; congruence|]. apply IH. intros i. apply (H (S i)).
Qed.
