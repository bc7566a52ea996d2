(** * Prop_Batch.v : prediction is row by row (C65) *)
From Verif Require Import CalFacts ProbaFacts ClfFacts Demo Prop_Helpers Prop_Prep Prop_Fit Prop_Classifier Prop_FitModel Prop_ClfProba.
Open Scope nat_scope.

(** the two rows agree on every feature the rules mention *)
Definition agree_on (rs : list rule) (cols : list pyval) (rw : row) (cols' : list pyval) (rw' : row) : Prop :=
  forall f v, mentions rs f -> (value_at cols rw f v <-> value_at cols' rw' f v).

Lemma holds_agree bt rs r cols rw cols' rw' : In r rs -> agree_on rs cols rw cols' rw' -> (holds bt cols rw r <-> holds bt cols' rw' r).
Proof.
  intros I A. unfold holds, sees. split; intros H c Ic; destruct (H c Ic) as (w & (v & V & SH) & E); exists w; split; auto; exists v; split; auto;
    (apply (A (cfeat c) v); [exists r, c; auto|exact V]).
Qed.
(** the same rules hold for two rows *)
Definition same_rules (bt : bin_transformer) (rs : list rule) (cols : list pyval) (rw : row) (cols' : list pyval) (rw' : row) : Prop :=
  forall r, In r rs -> (holds bt cols rw r <-> holds bt cols' rw' r).
Lemma agree_same bt rs cols rw cols' rw' : agree_on rs cols rw cols' rw' -> same_rules bt rs cols rw cols' rw'.
Proof. intros A r I. eapply holds_agree; eauto. Qed.
Lemma some_agree bt rs cols rw cols' rw' : same_rules bt rs cols rw cols' rw' -> (some_holds bt cols rw rs <-> some_holds bt cols' rw' rs).
Proof. intros A. unfold some_holds. split; intros (r & I & H); exists r; split; auto; apply (A r I); exact H. Qed.

Lemma same_rules_predict : forall cl x cf pc sel bt X names fr X' names' fr',
  ready cl x cf pc sel -> c_bt cl = Some bt -> suits cl x cf sel bt X names fr -> suits cl x cf sel bt X' names' fr' ->
  exists preds reasons preds' reasons',
    clf_predict cl X names = (cl, Ok preds) /\ clf_predict_reasons cl X names = (cl, Ok (preds, reasons)) /\
    clf_predict cl X' names' = (cl, Ok preds') /\ clf_predict_reasons cl X' names' = (cl, Ok (preds', reasons')) /\
    length preds = length (frows fr) /\ length preds' = length (frows fr') /\
    forall i j rw rw', nth_error (frows fr) i = Some rw -> nth_error (frows fr') j = Some rw' ->
      same_rules bt (rs_rules x) (fcols fr) rw (fcols fr') rw' ->
      nth_error preds i = nth_error preds' j /\ nth_error reasons i = nth_error reasons' j.
Proof.
  intros cl x cf pc sel bt X names fr X' names' fr' R B S S'.
  destruct (C03_classifier_reasons _ _ _ _ _ _ _ _ _ R B S) as (preds & reasons & E & EP & F).
  destruct (C03_classifier_reasons _ _ _ _ _ _ _ _ _ R B S') as (preds' & reasons' & E' & EP' & F').
  destruct (C01_classifier_predict _ _ _ _ _ _ _ _ _ R B S) as (p1 & X1 & G). rewrite EP in X1. injection X1 as <-.
  destruct (C01_classifier_predict _ _ _ _ _ _ _ _ _ R B S') as (p1 & X1 & G'). rewrite EP' in X1. injection X1 as <-.
  exists preds, reasons, preds', reasons'. do 4 (split; [auto|]). split; [symmetry; eapply Forall2_length; eauto|]. split; [symmetry; eapply Forall2_length; eauto|].
  intros i j rw rw' Hi Hj A.
  assert (GET : forall C (P : row -> C -> Prop) l k n a, Forall2 P l k -> nth_error l n = Some a -> exists b, nth_error k n = Some b /\ P a b).
  { clear. intros C P l k n a F. revert n. induction F; intros [|n] H1; try discriminate; cbn in *; [injection H1 as <-; eauto|eauto]. }
  destruct (GET _ _ _ _ _ _ F Hi) as (rr & N1 & P1). destruct (GET _ _ _ _ _ _ F' Hj) as (rr' & N2 & P2).
  destruct (GET _ _ _ _ _ _ G Hi) as (p & N3 & P3). destruct (GET _ _ _ _ _ _ G' Hj) as (p' & N4 & P4).
  rewrite N1, N2, N3, N4. split; f_equal.
  - assert (Z := some_agree bt _ _ _ _ _ A). destruct p, p'; auto; [symmetry|]; [apply P4; apply Z; apply P3; auto|apply P3; apply Z; apply P4; auto].
  - eapply picks_unique; [exact P1|]. eapply picks_ext; [|exact P2]. intros r I. symmetry. apply A; auto.
Qed.
(** C65. Two batches that suit the classifier (distinct labels within each batch; other batch size, order, labels, extra columns, form of the data): examples that
    agree on the features the rules mention get the same prediction, the same reasons and the same probabilities.
    Partial: batches with repeated row labels, and batches whose binned columns mix numbers and labels, are excluded; see the refutations. *)
Theorem C65_row_by_row_partial : forall cl x cf pc sel bt X names fr X' names' fr',
  ready cl x cf pc sel -> c_bt cl = Some bt -> suits cl x cf sel bt X names fr -> suits cl x cf sel bt X' names' fr' ->
  exists preds reasons preds' reasons',
    clf_predict cl X names = (cl, Ok preds) /\ clf_predict_reasons cl X names = (cl, Ok (preds, reasons)) /\
    clf_predict cl X' names' = (cl, Ok preds') /\ clf_predict_reasons cl X' names' = (cl, Ok (preds', reasons')) /\
    length preds = length (frows fr) /\ length preds' = length (frows fr') /\
    forall i j rw rw', nth_error (frows fr) i = Some rw -> nth_error (frows fr') j = Some rw' ->
      agree_on (rs_rules x) (fcols fr) rw (fcols fr') rw' ->
      nth_error preds i = nth_error preds' j /\ nth_error reasons i = nth_error reasons' j.
Proof.
  intros cl x cf pc sel bt X names fr X' names' fr' R B S S'. destruct (same_rules_predict _ _ _ _ _ _ _ _ _ _ _ _ R B S S') as (p & q & p' & q' & E1 & E2 & E3 & E4 & L1 & L2 & H).
  exists p, q, p', q'. do 6 (split; [assumption|]). intros i j rw rw' Hi Hj A. apply (H i j rw rw' Hi Hj). apply agree_same. exact A.
Qed.
Print Assumptions C65_row_by_row_partial.
Lemma same_rules_proba : forall cl x cf pc sel bt X names fr X' names' fr',
  ready cl x cf pc sel -> c_bt cl = Some bt -> suits cl x cf sel bt X names fr -> suits cl x cf sel bt X' names' fr' -> calibrated x ->
  exists probas reasons probas' reasons',
    snd (clf_predict_proba cl X names) = Ok (probas, reasons) /\ snd (clf_predict_proba cl X' names') = Ok (probas', reasons') /\
    forall i j rw rw' pr, nth_error (frows fr) i = Some rw -> nth_error (frows fr') j = Some rw' ->
      same_rules bt (rs_rules x) (fcols fr) rw (fcols fr') rw' ->
      nth_error probas i = Some pr -> exists pr', nth_error probas' j = Some pr' /\ eq_pair pr pr'.
Proof.
  intros cl x cf pc sel bt X names fr X' names' fr' R B S S' C.
  destruct (C40_classifier_proba _ _ _ _ _ _ _ _ _ R B S C) as (probas & reasons & unc & E & EU & _ & _ & F).
  destruct (C40_classifier_proba _ _ _ _ _ _ _ _ _ R B S' C) as (probas' & reasons' & unc' & E' & EU' & _ & _ & F'). rewrite EU in EU'. injection EU' as <-.
  exists probas, reasons, probas', reasons'. rewrite E, E'. do 2 (split; [reflexivity|]). intros i j rw rw' pr Hi Hj A Hp.
  destruct (nth_error probas' j) as [pr'|] eqn:Hp'; [|apply nth_error_None in Hp'; apply Forall2_length in F'; rewrite <- F' in Hp'; assert (j < length (frows fr')) by (apply nth_error_Some; congruence); lia].
  exists pr'. split; auto.
  assert (H1 := Forall2_nth_both _ _ _ F i rw pr Hi Hp). assert (H2 := Forall2_nth_both _ _ _ F' j rw' pr' Hj Hp'). cbv beta in H1, H2. destruct H1 as [N1 P1]. destruct H2 as [N2 P2].
  assert (Z := some_agree bt _ _ _ _ _ A).
  assert (DEC : some_holds bt (fcols fr) rw (rs_rules x) \/ ~ some_holds bt (fcols fr) rw (rs_rules x)).
  { destruct (C01_classifier_predict _ _ _ _ _ _ _ _ _ R B S) as (preds & _ & G).
    destruct (nth_error preds i) as [p|] eqn:Hq; [|apply nth_error_None in Hq; apply Forall2_length in G; rewrite <- G in Hq; assert (i < length (frows fr)) by (apply nth_error_Some; congruence); lia].
    assert (K := Forall2_nth_both _ _ _ G i rw p Hi Hq). cbv beta in K. destruct p; [left; apply K; auto|right; intros T; apply K in T; discriminate]. }
  destruct DEC as [D|D].
  - destruct (P1 D) as (cov & ps & K1 & K2 & K3). destruct (P2 (proj1 Z D)) as (cov' & ps' & K1' & K2' & K3').
    assert (cov' = cov). { eapply picks_unique; [exact K1'|]. eapply picks_ext; [|exact K1]. intros r I. apply A; auto. } subst cov'.
    assert (ps' = ps). { clear -K2 K2'. revert ps' K2'. induction K2 as [|r p c ps (s & Es & <-) K2 IH]; intros ps' K; inversion K as [|? ? ? ? (s' & Es' & <-) K']; subst; auto. rewrite Es in Es'. injection Es' as <-. f_equal. auto. } subst ps'.
    destruct K3 as (NE & M1 & M2). destruct K3' as (_ & M1' & M2').
    assert (QN : ~ (qn (length ps) == 0)%Q) by (assert (0 < qn (length ps))%Q by (apply qn_pos; destruct ps; cbn; [congruence|lia]); intros Q0; rewrite Q0 in H; discriminate).
    split; [apply (Qmult_inj_r _ _ (qn (length ps))); auto; rewrite M1, M1'; reflexivity|apply (Qmult_inj_r _ _ (qn (length ps))); auto; rewrite M2, M2'; reflexivity].
  - assert (D' : ~ some_holds bt (fcols fr') rw' (rs_rules x)) by tauto. destruct (N1 D) as [A1 A2]. destruct (N2 D') as [B1 B2]. split; [rewrite A1, B1; reflexivity|rewrite A2, B2; reflexivity].
Qed.
(** and the same probabilities *)
Theorem C65_probabilities_partial : forall cl x cf pc sel bt X names fr X' names' fr',
  ready cl x cf pc sel -> c_bt cl = Some bt -> suits cl x cf sel bt X names fr -> suits cl x cf sel bt X' names' fr' -> calibrated x ->
  exists probas reasons probas' reasons',
    snd (clf_predict_proba cl X names) = Ok (probas, reasons) /\ snd (clf_predict_proba cl X' names') = Ok (probas', reasons') /\
    forall i j rw rw' pr, nth_error (frows fr) i = Some rw -> nth_error (frows fr') j = Some rw' ->
      agree_on (rs_rules x) (fcols fr) rw (fcols fr') rw' ->
      nth_error probas i = Some pr -> exists pr', nth_error probas' j = Some pr' /\ eq_pair pr pr'.
Proof.
  intros cl x cf pc sel bt X names fr X' names' fr' R B S S' C. destruct (same_rules_proba _ _ _ _ _ _ _ _ _ _ _ _ R B S S' C) as (p & q & p' & q' & E1 & E2 & H).
  exists p, q, p', q'. do 2 (split; [assumption|]). intros i j rw rw' pr Hi Hj A. apply (H i j rw rw' pr Hi Hj). apply agree_same. exact A.
Qed.
Print Assumptions C65_probabilities_partial.
(** any part of a batch, in any order, with repetitions and with any distinct labels, is itself a suitable batch *)
Lemma suits_part cl x cf sel bt fr rows : suits cl x cf sel bt (DFrame fr) None fr -> rows <> [] -> NoDup (labels rows) ->
  (forall r, In r rows -> exists r0, In r0 (frows fr) /\ rcells r = rcells r0) -> suits cl x cf sel bt (DFrame (mkframe (fcols fr) rows)) None (mkframe (fcols fr) rows).
Proof.
  intros [PI G NE L SB B S1 S2] NR ND SUB.
  assert (VA : forall r r0 f v, rcells r = rcells r0 -> value_at (fcols fr) r f v -> value_at (fcols fr) r0 f v) by (intros r r0 f v E; unfold value_at; rewrite E; auto).
  constructor; auto.
  - apply predict_plain; [auto|apply table_frame].
  - destruct G as [W D]. split; auto. unfold wf_frame in *. cbn [fcols frows]. intros r I. destruct (SUB r I) as (r0 & I0 & E). rewrite E. auto.
  - intros f b BF CP N. destruct (B f b BF CP N) as [NU|LB]; [left|right]; intros r v I V; destruct (SUB r I) as (r0 & I0 & E); cbn [fcols frows] in *; eauto.
Qed.
(** C65, one table: predicting any selection of its rows (any order, repeated, relabelled) gives what predicting the whole table gives for those rows *)
Theorem C65_selection_partial : forall cl x cf pc sel bt fr rows,
  ready cl x cf pc sel -> c_bt cl = Some bt -> suits cl x cf sel bt (DFrame fr) None fr -> rows <> [] -> NoDup (labels rows) ->
  (forall r, In r rows -> exists r0, In r0 (frows fr) /\ rcells r = rcells r0) ->
  exists preds preds', snd (clf_predict cl (DFrame fr) None) = Ok preds /\ snd (clf_predict cl (DFrame (mkframe (fcols fr) rows)) None) = Ok preds' /\
    length preds' = length rows /\
    forall i j rw rw', nth_error (frows fr) i = Some rw -> nth_error rows j = Some rw' -> rcells rw = rcells rw' -> nth_error preds i = nth_error preds' j.
Proof.
  intros cl x cf pc sel bt fr rows R B S NR ND SUB. assert (S' := suits_part _ _ _ _ _ _ _ S NR ND SUB).
  destruct (C65_row_by_row_partial _ _ _ _ _ _ _ _ _ _ _ _ R B S S') as (preds & reasons & preds' & reasons' & E1 & _ & E2 & _ & _ & L & H).
  exists preds, preds'. rewrite E1, E2. do 2 (split; [reflexivity|]). split; [exact L|]. intros i j rw rw' Hi Hj EC. eapply H; eauto.
  intros f v _. cbn [fcols]. unfold value_at. rewrite EC. tauto.
Qed.
Print Assumptions C65_selection_partial.
Example C65_nonvacuous : exists preds preds', snd (clf_predict people_clf (DFrame newcomers) None) = Ok preds /\
  snd (clf_predict people_clf (DFrame (mkframe (fcols newcomers) [mkrow 0 [PDec (-35) 1; PInt 2; PInt 0; s_ "b"]; mkrow 1 [PInt 100; PNaN; PInt 1; s_ "a"]; mkrow 2 [PDec (-35) 1; PInt 2; PInt 0; s_ "b"]])) None) = Ok preds' /\
  preds = [true; false; true] /\ preds' = [false; true; false].
Proof.
  destruct (C65_selection_partial people_clf people_rules (s_ "t") (PInt 1) [s_ "v"] people_bt newcomers
    [mkrow 0 [PDec (-35) 1; PInt 2; PInt 0; s_ "b"]; mkrow 1 [PInt 100; PNaN; PInt 1; s_ "a"]; mkrow 2 [PDec (-35) 1; PInt 2; PInt 0; s_ "b"]]
    people_ready eq_refl people_suits) as (preds & preds' & E1 & E2 & L & H).
  - discriminate.
  - repeat constructor; cbn; intuition discriminate.
  - intros r [<-|[<-|[<-|[]]]]; [exists (mkrow 3 [PDec (-35) 1; PInt 2; PInt 0; s_ "b"])|exists (mkrow 7 [PInt 100; PNaN; PInt 1; s_ "a"])|exists (mkrow 3 [PDec (-35) 1; PInt 2; PInt 0; s_ "b"])]; split; auto; cbn; auto.
  - exists preds, preds'. split; auto. split; auto. vm_compute in E1. injection E1 as <-. split; [reflexivity|]. clear E2.
    destruct preds' as [|a [|b [|c [|? ?]]]]; try discriminate L.
    assert (Ha := H 1 0 _ _ eq_refl eq_refl eq_refl). assert (Hb := H 0 1 _ _ eq_refl eq_refl eq_refl). assert (Hc := H 1 2 _ _ eq_refl eq_refl eq_refl). cbn in Ha, Hb, Hc. congruence.
Qed.
(** REFUTED with repeated row labels: an example predicted False alone is predicted True in the company of an example with the same label *)
Theorem C65_repeated_labels_refuted :
  snd (clf_predict people_clf (DFrame (mkframe [s_ "v"] [mkrow 0 [PInt (-9)]])) None) = Ok [false] /\
  snd (clf_predict people_clf (DFrame (mkframe [s_ "v"] [mkrow 0 [PInt (-9)]; mkrow 0 [PInt 100]])) None) = Ok [true; true].
Proof. split; vm_compute; reflexivity. Qed.
Print Assumptions C65_repeated_labels_refuted.
(** REFUTED when a binned column mixes numbers and bin labels: each example alone is predicted, together they raise ValueError *)
Theorem C65_mixed_column_refuted :
  snd (clf_predict people_clf (DFrame (mkframe [s_ "v"] [mkrow 0 [PInt 100]])) None) = Ok [true] /\
  snd (clf_predict people_clf (DFrame (mkframe [s_ "v"] [mkrow 1 [s_ ">-1.0"]])) None) = Ok [true] /\
  snd (clf_predict people_clf (DFrame (mkframe [s_ "v"] [mkrow 0 [PInt 100]; mkrow 1 [s_ ">-1.0"]])) None) = Err ValueError.
Proof. split; [|split]; vm_compute; reflexivity. Qed.
Print Assumptions C65_mixed_column_refuted.
