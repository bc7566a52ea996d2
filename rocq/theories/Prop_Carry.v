(** * Prop_Carry.v : giving a classifier's rules to another classifier carries the rules but not the bins (C110) *)
From Verif Require Import TransFacts SessionFacts TrainView Demo Prop_Helpers Prop_Prep Prop_Fit Prop_Classifier Prop_FitModel Prop_Text Prop_Session Prop_Ranges.
Open Scope nat_scope.

(** [m] is a model argument (rules, printed text, classifier) with the rules of [x] *)
Definition carries (m : model_arg) (x : ruleset) : Prop := exists x', model_means m x' /\ map conds (rs_rules x') = map conds (rs_rules x).
(** the conditions of a rule on discretised features all meet a value that already is the label of a bin in this row *)
Definition labels_met (bt : bin_transformer) (cols : list pyval) (rw : row) (r : rule) : Prop :=
  forall c b, In c (conds r) -> bins_for bt (cfeat c) b -> exists s, value_at cols rw (cfeat c) (PStr s).

Lemma conds_transfer (l l' : list rule) : map conds l = map conds l' -> forall r, In r l -> exists r', In r' l' /\ conds r' = conds r.
Proof.
  intros E r I. apply (in_map conds) in I. rewrite E in I. apply in_map_iff in I. destruct I as (r' & Q & I). exists r'. auto.
Qed.
Lemma mentions_conds l l' f : map conds l = map conds l' -> mentions l f -> mentions l' f.
Proof. intros E (r & c & I & J & F). destruct (conds_transfer _ _ E r I) as (r' & I' & Q). exists r', c. rewrite Q. auto. Qed.
Lemma some_holds_conds bt cols rw l l' : map conds l = map conds l' -> some_holds bt cols rw l -> some_holds bt cols rw l'.
Proof. intros E (r & I & H). destruct (conds_transfer _ _ E r I) as (r' & I' & Q). exists r'. split; [exact I'|]. unfold holds in *. rewrite Q. exact H. Qed.
Lemma sat_ruleset_conds cols rw l l' : map conds l = map conds l' -> sat_ruleset cols rw l -> sat_ruleset cols rw l'.
Proof. intros E (r & I & H). destruct (conds_transfer _ _ E r I) as (r' & I' & Q). exists r'. split; [exact I'|]. unfold sat_rule in *. rewrite Q. exact H. Qed.
Lemma preds_eq {A} (P : A -> Prop) rows : forall l l', Forall2 (fun r (p : bool) => p = true <-> P r) rows l -> Forall2 (fun r (p : bool) => p = true <-> P r) rows l' -> l = l'.
Proof.
  intros l l' H. revert l'. induction H as [|r p rows l H F IH]; intros l' H'; inversion H' as [|? p' ? l0 Q F']; subst; [reflexivity|]. f_equal; [|apply IH; exact F'].
  destruct p, p'; auto; [symmetry; apply Q, H; reflexivity|apply H, Q; reflexivity].
Qed.

(** ** The same classifier: giving a fitted classifier its own rules back, in any form, changes no prediction *)
Theorem C110_same_classifier : forall cl x cf pc sel bt m pc' cl1 X names fr,
  ready cl x cf pc sel -> c_bt cl = Some bt -> carries m x -> init_ruleset cl m cf pc' = (cl1, Ok tt) -> suits cl x cf sel bt X names fr ->
  exists preds, clf_predict cl X names = (cl, Ok preds) /\ clf_predict cl1 X names = (cl1, Ok preds).
Proof.
  intros cl x cf pc sel bt m pc' cl1 X names fr R B (x' & M & E) I S. destruct (C01_classifier_predict _ _ _ _ _ _ _ _ _ R B S) as (preds & P & F).
  assert (R1 : ready cl1 x' cf pc' (selected_features (rs_rules x')) /\ c_bt cl1 = Some bt).
  { apply means_from in M. unfold init_ruleset in I. rewrite M in I. injection I as <-. split; [constructor; try reflexivity; discriminate|exact B]. }
  destruct R1 as [R1 B1].
  assert (S1 : suits cl1 x' cf (selected_features (rs_rules x')) bt X names fr).
  { destruct S as [S1 S2 S3 S4 S5 S6 S7 S8]. assert (K : forall f, mentions (rs_rules x') f -> usable fr cf f) by (intros f J; apply S8; eapply mentions_conds; eauto).
    constructor; auto. intros f J. apply K. apply selected_mentioned. exact J. }
  destruct (C01_classifier_predict _ _ _ _ _ _ _ _ _ R1 B1 S1) as (preds1 & P1 & F1). exists preds. split; [exact P|]. rewrite P1. do 2 f_equal.
  apply (preds_eq (fun rw => some_holds bt (fcols fr) rw (rs_rules x)) (frows fr)); [|exact F].
  eapply Forall2_imp; [|exact F1]. intros rw p H. rewrite H. split; apply some_holds_conds; congruence.
Qed.
Print Assumptions C110_same_classifier.

(** the printed model, the rules themselves and the classifier are such forms *)
Theorem C110_forms : forall x, 
  carries (MClf (Some x)) x /\ (rs_rules x <> [] -> carries (MRuleset x) x) /\ ((forall r, In r (rs_rules x) -> plain_rule r) -> carries (MStr (rs_str (rs_rules x))) x).
Proof.
  intros x. split; [exists x; split; [constructor|reflexivity]|]. split; [intros N; exists x; split; [constructor; exact N|reflexivity]|].
  intros P. destruct (C11_print_parse_partial _ P) as (l & A & E & _). exists (Ruleset_ l). split; [|exact E]. apply means_text; [|exact A].
  unfold rs_str. discriminate.
Qed.
Print Assumptions C110_forms.

Lemma Forall2_row {A} (R : A -> bool -> Prop) (S : A -> bool -> Prop) rows l : (forall r p, In r rows -> R r p -> S r p) -> Forall2 R rows l -> Forall2 S rows l.
Proof. intros H F. induction F as [|r p rows l Q F IH]; constructor; [apply H; [left; reflexivity|exact Q]|]. apply IH. intros r' p' I. apply H. right. exact I. Qed.

(** ** Another classifier: what remains of the model *)
Lemma bins_dec bt f : (exists b, bins_for bt f b) \/ (forall b, ~ bins_for bt f b).
Proof.
  unfold bins_for. destruct (bt_bins bt) as [bins|] eqn:B; [|right; intros b (l & g & E & _); discriminate E].
  destruct (existsb (fun p => py_eq (fst p) f) bins) eqn:X.
  - left. apply existsb_exists in X. destruct X as ([g b] & I & E). exists b, bins, g. auto.
  - right. intros b (l & g & E & I & Q). injection E as <-. assert (existsb (fun p => py_eq (fst p) f) bins = true) by (apply existsb_exists; exists (g, b); auto). congruence.
Qed.
Definition text_on_bins (bt : bin_transformer) (l : list rule) : Prop :=
  forall r c b, In r l -> In c (conds r) -> bins_for bt (cfeat c) b -> cval c = PNaN \/ exists s, cval c = PStr s.
Lemma raw_holds bt cols rw r : distinct_cols cols -> (forall c b, In c (conds r) -> bins_for bt (cfeat c) b -> cval c = PNaN \/ exists s, cval c = PStr s) ->
  sat_rule cols rw r <-> holds bt cols rw r /\ labels_met bt cols rw r.
Proof.
  intros D T. split.
  - intros H. split.
    + intros c I. destruct (H c I) as (v & V & E). exists v. split; [|exact E]. exists v. split; [exact V|]. destruct (bins_dec bt (cfeat c)) as [(b & B)|N].
      * left. split; [|reflexivity]. destruct (T c b I B) as [Q|(s & Q)]; rewrite Q in E; [rewrite py_eq_nan_r in E; discriminate E|]. destruct v as [t| | | |]; try discriminate E. exists t. reflexivity.
      * right. left. auto.
    + intros c b I B. destruct (H c I) as (v & V & E). destruct (T c b I B) as [Q|(s & Q)]; rewrite Q in E; [rewrite py_eq_nan_r in E; discriminate E|].
      destruct v as [t| | | |]; try discriminate E. exists t. exact V.
  - intros [H L] c I. destruct (H c I) as (w & (v & V & SH) & E). destruct SH as [[_ ->]|[[_ ->]|(N & ivs & B & _)]]; [exists v; auto|exists v; auto|].
    exfalso. destruct (L c _ I B) as (s & V'). apply value_at_cell in V, V'; auto. apply (N s). congruence.
Qed.
Lemma raw_some bt cols rw l : distinct_cols cols -> text_on_bins bt l ->
  sat_ruleset cols rw l <-> exists r, In r l /\ holds bt cols rw r /\ labels_met bt cols rw r.
Proof.
  intros D T. split; intros (r & I & H); exists r; (split; [exact I|]).
  - apply raw_holds; auto. intros c b J. apply (T r c b I J).
  - apply (raw_holds bt) in H; auto. intros c b J. apply (T r c b I J).
Qed.

(** the conditions of a fitted model on discretised features are labels (or missing) *)
Lemma fitted_text w cl X y cf pc names cnopt kw f vs ix cl' x bt : world_ok w -> training_input X y cf names f vs ix -> NoDup ix ->
  (0 <= h_prune (hyper_of cl kw))%Q -> (h_prune (hyper_of cl kw) <= 1)%Q -> nbins_fine (h_nbins (hyper_of cl kw)) ->
  fit w cl X y cf pc names MNone cnopt kw = (cl', Ok tt) -> c_rs cl' = Some x -> c_bt cl' = Some bt -> sound_bt bt /\ text_on_bins bt (rs_rules x).
Proof.
  intros WO T ND P0 P1 NB H RS EB.
  assert (SB : sound_bt bt).
  { destruct (fit_trained _ _ _ _ _ _ _ _ _ _ _ _ _ _ WO T ND P0 P1 NB H) as (df & df0 & p & bt' & xi & x1 & x2 & xx & pp & nn & p' & n' & FT & _).
    assert (FB := ft_bt _ _ _ _ _ _ _ _ _ _ _ _ _ _ _ _ _ _ FT). rewrite FB in EB. injection EB as <-.
    exact (fit_pre_sound _ _ _ _ _ _ _ _ _ _ _ _ _ _ _ WO (nbins_fine_ok _ NB) T (ft_pre _ _ _ _ _ _ _ _ _ _ _ _ _ _ _ _ _ _ FT)). }
  split; [exact SB|]. intros r c b I J B.
  destruct (C26_fit_conditions_from_data _ _ _ _ _ _ _ _ _ _ _ _ _ _ _ _ WO T ND P0 P1 NB H RS I J) as (bt' & table & df & EB' & TD & TR & FD).
  rewrite EB in EB'. injection EB' as <-. destruct (input_pre _ _ _ _ _ _ _ T) as (df0 & G & _ & _ & _ & _ & TD' & _). rewrite TD in TD'. injection TD' as <-.
  destruct B as (bins & g & EQ & IB & Q). destruct SB as [N|(bins' & EQ' & DK & _ & _)]; [congruence|]. rewrite EQ in EQ'. injection EQ' as <-.
  destruct G as [W DC]. destruct (transform_spec _ _ _ _ EQ DK W TR) as (S1 & _ & S3 & S4 & S5 & _). destruct FD as (_ & _ & rw & IR & V).
  assert (Gdf : good_frame df) by (split; [exact S3|rewrite S1; exact DC]).
  assert (V' : value_at (fcols df) rw g (cval c)).
  { destruct V as (j & k & N & E & U). exists j, k. split; [exact N|]. split; [|exact U]. rewrite py_eq_sym in Q. eapply py_eq_trans; eauto. }
  assert (HC : has_col df g = true) by (apply has_col_iff; eapply value_column_present; exact V').
  assert (HC0 : has_col table g = true) by (unfold has_col in *; rewrite <- S1; exact HC).
  destruct (In_nth_error _ _ IR) as (i & Hi). apply (value_column df g i rw (cval c) Gdf HC Hi) in V'. apply nth_error_In in V'.
  destruct (is_text_col (column table g)) eqn:TX.
  - destruct (S5 _ _ IB HC0 TX) as [E U]. rewrite E in V'. destruct (U _ V') as (s & -> & _). right. exists s. reflexivity.
  - destruct (S4 _ _ IB HC0 TX) as (vs' & E & U). destruct (transform_feat_ok _ _ _ _ _ E) as [_ O]. rewrite <- U in O. destruct (O _ V') as [->|(s & -> & _)]; [left; reflexivity|right; exists s; reflexivity].
Qed.

(** ** C110. A fitted model given to a new classifier (as rules, text or the classifier itself): after the new classifier's first prediction it predicts True
    exactly where some rule holds whose discretised features already carry labels of bins in the data. So it never predicts True where the fitted classifier
    does not; it agrees with it wherever the data are discretised already or the rules use no discretised feature; and on raw numbers every rule with
    a discretised feature is lost. *)
Theorem C110_new_classifier : forall w cl X y cf pc names cnopt kw f vs ix cl' x sel bt m pc' new0 new1 X1 names1 new2 o X2 names2 fr,
  world_ok w -> training_input X y cf names f vs ix -> NoDup ix ->
  (0 <= h_prune (hyper_of cl kw))%Q -> (h_prune (hyper_of cl kw) <= 1)%Q -> nbins_fine (h_nbins (hyper_of cl kw)) ->
  fit w cl X y cf pc names MNone cnopt kw = (cl', Ok tt) -> c_rs cl' = Some x -> c_bt cl' = Some bt -> c_sel cl' = Some sel ->
  c_bt new0 = None -> carries m x -> init_ruleset new0 m f pc' = (new1, Ok tt) -> clf_predict new1 X1 names1 = (new2, o) ->
  prediction_input X2 names2 f fr -> good_frame fr -> frows fr <> [] -> distinct_labels fr -> binnable bt fr f -> (forall g, In g sel -> usable fr f g) ->
  exists preds preds', clf_predict cl' X2 names2 = (cl', Ok preds) /\ clf_predict new2 X2 names2 = (new2, Ok preds') /\
    Forall2 (fun rw p => p = true <-> exists r, In r (rs_rules x) /\ holds bt (fcols fr) rw r /\ labels_met bt (fcols fr) rw r) (frows fr) preds' /\
    Forall2 (fun p' p => p' = true -> p = true) preds' preds /\
    ((forall g b, mentions (rs_rules x) g -> bins_for bt g b -> label_column fr g b) -> preds' = preds) /\
    ((forall g b, mentions (rs_rules x) g -> bins_for bt g b -> numeric_column fr g) ->
      Forall2 (fun rw p => p = true <-> exists r, In r (rs_rules x) /\ holds bt (fcols fr) rw r /\ forall c b, In c (conds r) -> ~ bins_for bt (cfeat c) b) (frows fr) preds').
Proof.
  intros w cl X y cf pc names cnopt kw f vs ix cl' x sel bt m pc' new0 new1 X1 names1 new2 o X2 names2 fr WO T ND P0 P1 NB H RS EB ES BN (x' & M & E) IN FP PI G NE DL BI US.
  destruct (fitted_text _ _ _ _ _ _ _ _ _ _ _ _ _ _ _ WO T ND P0 P1 NB H RS EB) as [SB TX].
  destruct (C55_fitted_predict_partial _ _ _ _ _ _ _ _ _ _ _ _ _ _ _ _ _ _ _ _ WO T ND P0 P1 NB H RS ES EB PI G NE DL BI US) as (preds & EP & F).
  assert (UM : forall g, mentions (rs_rules x) g -> usable fr f g).
  { destruct (fit_trained _ _ _ _ _ _ _ _ _ _ _ _ _ _ WO T ND P0 P1 NB H) as (df & df0 & p & bt' & xi & x1 & x2 & xx & pp & nn & p' & n' & FT & _).
    destruct FT as [_ _ _ FF FR _ _ _ FS _ _ _ _]. rewrite FR in RS. injection RS as <-. rewrite FS in ES. injection ES as <-.
    intros g (r & c & I & J & ->). destruct (finish_In _ _ _ _ _ _ _ _ _ FF I) as (r1 & I1 & EC). rewrite EC in J.
    eapply (selected_usable fr f (rs_rules x1) US). exists r1, c; auto. }
  destruct (C58_second_predict _ _ _ _ _ _ _ _ _ _ X2 names2 fr BN M IN FP PI G NE DL) as (preds' & EP' & F').
  { intros g MG. apply UM. eapply mentions_conds; eauto. }
  assert (DC : distinct_cols (fcols fr)) by apply G.
  assert (F1 : Forall2 (fun rw p => p = true <-> exists r, In r (rs_rules x) /\ holds bt (fcols fr) rw r /\ labels_met bt (fcols fr) rw r) (frows fr) preds').
  { eapply Forall2_imp; [|exact F']. intros rw p Q. rewrite Q, <- (raw_some bt (fcols fr) rw (rs_rules x) DC TX). split; apply sat_ruleset_conds; congruence. }
  exists preds, preds'. split; [exact EP|]. split; [exact EP'|]. split; [exact F1|]. split; [|split].
  - clear - F F1. revert preds' F1. induction F as [|rw p rows preds Q F IH]; intros preds' F1; inversion F1 as [|? p' ? l0 Q' F1']; subst; constructor; auto.
    intros P'. apply Q. apply Q' in P'. destruct P' as (r & I & HH & _). exists r. auto.
  - intros LB. apply (preds_eq (fun rw => exists r, In r (rs_rules x) /\ holds bt (fcols fr) rw r /\ labels_met bt (fcols fr) rw r) (frows fr)); [exact F1|].
    apply (Forall2_row (fun rw p => p = true <-> some_holds bt (fcols fr) rw (rs_rules x))); [|exact F]. intros rw p IR Q. rewrite Q.
    split; [|intros (r & I & HH & _); exists r; auto]. intros (r & I & HH). exists r. split; [exact I|]. split; [exact HH|].
    intros c b J B. destruct (HH c J) as (u & (v & V & _) & _). assert (MG : mentions (rs_rules x) (cfeat c)) by (exists r, c; auto).
    destruct (LB _ _ MG B rw v IR V) as (s & -> & _). exists s. exact V.
  - intros NU. apply (Forall2_row (fun rw p => p = true <-> exists r, In r (rs_rules x) /\ holds bt (fcols fr) rw r /\ labels_met bt (fcols fr) rw r)); [|exact F1].
    intros rw p IR Q. rewrite Q. split; intros (r & I & HH & L); exists r; (split; [exact I|]; split; [exact HH|]).
    + intros c b J B. destruct (L c b J B) as (s & V). assert (MG : mentions (rs_rules x) (cfeat c)) by (exists r, c; auto).
      destruct (NU _ _ MG B rw _ IR V) as [(z & K)|[(a & k & K)|K]]; discriminate K.
    + intros c b J B. destruct (L c b J B).
Qed.
Print Assumptions C110_new_classifier.

(** The people model of Prop_Helpers ("v is above -1", learned with bins) given to a new classifier: on raw numbers it predicts nothing; on the
    discretised table it predicts as before *)
Definition new_people : clf := fst (clf_predict (fst (init_ruleset (construct RIPPER_ []) (MClf (Some people_rules)) (s_ "t") (PInt 1))) (DFrame newcomers) None).
Definition binned_newcomers : frame := mkframe [s_ "v"] [mkrow 0 [s_ ">-1.0"]; mkrow 1 [s_ "<-1.0"]].
Example C110_nonvacuous :
  carries (MStr (rs_str (rs_rules people_rules))) people_rules /\ carries (MClf (Some people_rules)) people_rules /\
  snd (clf_predict people_clf (DFrame newcomers) None) = Ok [true; false; true] /\
  snd (clf_predict new_people (DFrame newcomers) None) = Ok [false; false; false] /\
  snd (clf_predict people_clf (DFrame binned_newcomers) None) = Ok [true; false] /\
  snd (clf_predict new_people (DFrame binned_newcomers) None) = Ok [true; false] /\
  snd (clf_predict (fst (init_ruleset people_clf (MStr (rs_str (rs_rules people_rules))) (s_ "t") (PInt 1))) (DFrame newcomers) None) = Ok [true; false; true].
Proof.
  split; [exists (Ruleset_ [Rule_ [c_ "v" ">-1.0"]]); split; [apply means_text; [discriminate|vm_compute; reflexivity]|reflexivity]|].
  split; [exists people_rules; split; [constructor|reflexivity]|]. vm_compute. repeat split.
Qed.
