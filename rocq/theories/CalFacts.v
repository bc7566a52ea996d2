(** * CalFacts.v : recalibration of a classifier *)
From Verif Require Import ProbaFacts ClfFacts.
From Verif Require Export CalSpec.
Open Scope nat_scope.

(** the table on which a recalibration counts, before binning *)
Definition carries (fr df : frame) (cf : pyval) (vs : list pyval) : Prop :=
  length (frows df) = length (frows fr) /\ length vs = length (frows fr) /\
  (forall g, column_present fr g -> column_present df g) /\ column_present df cf /\
  forall i rx v, nth_error (frows fr) i = Some rx -> nth_error vs i = Some v ->
    exists rd, nth_error (frows df) i = Some rd /\ value_at (fcols df) rd cf v /\
      forall g w, py_eq cf g = false -> (value_at (fcols df) rd g w <-> value_at (fcols fr) rx g w).
Lemma calibration_df X y names cf fr vs ix : calibration_input X y names cf fr vs ix -> good_frame fr -> frows fr <> [] ->
  check_input X y (Some cf) names true = Ok tt /\
  exists df, training_df X y cf names = Ok df /\ good_frame df /\ labels (frows df) = ix /\ carries fr df cf vs.
Proof.
  intros [-> T CP [CL CV] ->|y' -> NC FF T S -> L ->] G NE.
  - split.
    + unfold check_input. rewrite (table_len _ _ _ T). destruct (Nat.eqb_spec (length (frows fr)) 0) as [Z|Z]; [destruct (frows fr); [congruence|discriminate]|].
      cbn [negb bind]. rewrite (table_names _ _ _ T). replace (existsb (fun g => py_eq g cf) (fcols fr)) with true; [reflexivity|].
      symmetry. apply existsb_exists. destruct CP as (c & I & E). exists c; auto.
    + exists fr. unfold training_df. rewrite (table_rename _ _ _ T). split; [reflexivity|]. split; [auto|]. split; [auto|]. split; [auto|]. split; [auto|]. split; [auto|]. split; [auto|].
      intros i rx v Hx Hv. exists rx. split; auto. split; [eapply CV; eauto|]. tauto.
  - destruct (training_df_spec X names fr y' cf T G S L FF) as (df & E & GD & (D1 & D2 & D3 & D4)). split.
    + unfold check_input. rewrite (table_len _ _ _ T). destruct (Nat.eqb_spec (length (frows fr)) 0) as [Z|Z]; [destruct (frows fr); [congruence|discriminate]|].
      cbn [negb bind]. inversion NC; subst; try congruence; cbn; auto. 
      match goal with H : py_eq _ _ = true |- _ => rewrite H; reflexivity end.
    + exists df. split; auto. split; auto. split; auto. split; auto. split; auto. split; [intros g X1; apply D3; auto|]. split; [apply D3; auto|]. exact D4.
Qed.

(** binning a table that carries the class, when the class is not binned *)
Lemma calibration_views rs cf bt X y names fr vs : calibrates rs cf bt X y names fr vs ->
  exists df, preprocess_recalibrate X y cf names (Some bt) = Ok df /\ good_frame df /\ distinct_labels df /\ column_present df cf /\
    length (frows df) = length (frows fr) /\ length vs = length (frows fr) /\ (forall f, usable fr cf f -> column_present df f) /\
    forall i rx v rd, nth_error (frows fr) i = Some rx -> nth_error vs i = Some v -> nth_error (frows df) i = Some rd ->
      value_at (fcols df) rd cf v /\ forall f w, usable fr cf f -> (value_at (fcols df) rd f w <-> sees bt (fcols fr) rx f w).
Proof.
  intros [(ix & CI & ND) G NE SB NB B U]. destruct (calibration_df _ _ _ _ _ _ _ CI G NE) as (CK & d0 & E0 & G0 & L0 & (C1 & C2 & C3 & C4 & C5)).
  assert (PN : forall x, py_eq PNaN x = false) by (intros x; destruct x; reflexivity).
  assert (PN' : forall x, py_eq x PNaN = false) by (intros x; rewrite py_eq_sym; apply PN).
  assert (BACK : forall f rd v, py_eq cf f = false -> In rd (frows d0) -> value_at (fcols d0) rd f v -> exists rw, In rw (frows fr) /\ value_at (fcols fr) rw f v).
  { intros f rd v N I V. apply In_nth_error in I. destruct I as (i & Hi). assert (J : i < length (frows fr)) by (rewrite <- C1; apply nth_error_Some; congruence).
    destruct (nth_error (frows fr) i) as [rw|] eqn:En; [|apply nth_error_None in En; lia]. destruct (nth_error vs i) as [u|] eqn:Eu; [|apply nth_error_None in Eu; lia].
    destruct (C5 i rw u En Eu) as (rd' & Hd & _ & K). rewrite Hi in Hd. injection Hd as <-. exists rw. split; [eapply nth_error_In; eauto|]. apply K; auto. }
  assert (CFF : py_eq cf cf = true). { destruct C4 as (c & _ & Ec). eapply py_eq_refl_r; eauto. }
  assert (OTH : forall f b, bins_for bt f b -> py_eq cf f = false).
  { intros f b (bins & g & EB & I & E). apply Bool.not_true_iff_false. intros E'. apply (NB b). exists bins, g. split; auto. split; auto.
    eapply py_eq_trans; [exact E|]. rewrite py_eq_sym; auto. }
  destruct (transform_shown bt d0 PNaN SB G0) as (df & ET & GD & LD & FD & VD).
  { intros Z. rewrite Z in C1. destruct (frows fr); [congruence|discriminate]. }
  { intros (c & _ & E). rewrite PN' in E. discriminate. }
  { intros f b BF CP _. assert (N := OTH f b BF). assert (CPF : column_present fr f).
    { destruct CI as [-> T CP0 CV ->|y' -> NC FF T S -> L ->].
      - unfold training_df in E0. rewrite (table_rename _ _ _ T) in E0. injection E0 as <-. exact CP.
      - destruct (training_df_spec X names fr y' cf T G S L FF) as (d1 & E1 & _ & (_ & _ & D3 & _)). rewrite E0 in E1. injection E1 as <-. apply D3 in CP. destruct CP; auto; congruence. }
    destruct (B f b BF CPF N) as [NU|LB]; [left|right]; intros rd v I V; destruct (BACK f rd v N I V) as (rw & Irw & Vrw); eauto. }
  exists df. split; [unfold preprocess_recalibrate; rewrite CK; cbn [bind]; rewrite E0; cbn [bind]; exact ET|]. split; [auto|].
  split; [unfold distinct_labels; rewrite LD, L0; auto|]. split; [unfold column_present; rewrite FD; exact C4|].
  assert (LL : length (frows df) = length (frows d0)) by (unfold labels in LD; apply (f_equal (@length nat)) in LD; rewrite !map_length in LD; auto).
  split; [congruence|]. split; [auto|]. split.
  - intros f [CP N]. unfold column_present. rewrite FD. apply C3; auto.
  - intros i rx v rd Hx Hv Hd. destruct (C5 i rx v Hx Hv) as (r0 & H0 & V0 & K). split.
    + apply (VD i r0 rd H0 Hd cf v C4). exists v. split; auto. right. left. split; auto.
    + intros f w [CP N]. rewrite (VD i r0 rd H0 Hd f w) by auto. unfold sees. split; intros (u & V & SH); exists u; split; auto; apply K; auto.
Qed.

(** counting over pairs (row, label) instead of rows that carry the label *)
Lemma picks_transfer {A B} (P : A -> Prop) (R : B -> Prop) l k : Forall2 (fun a b => P a <-> R b) l k ->
  forall l', picks P l l' -> exists k', picks R k k' /\ length k' = length l'.
Proof.
  induction 1 as [|a b l k H F IH]; intros l' PK; inversion PK; subst.
  - exists []. split; constructor.
  - match goal with K : picks P l _ |- _ => destruct (IH _ K) as (k' & K1 & K2) end. exists (b :: k'). split; [constructor; auto; apply H; auto|cbn; congruence].
  - match goal with K : picks P l _ |- _ => destruct (IH _ K) as (k' & K1 & K2) end. exists k'. split; auto. apply picks_no; auto. rewrite <- H. auto.
Qed.
Lemma picks_picks {A} (P R : A -> Prop) l m k : picks P l m -> picks R m k -> picks (fun a => P a /\ R a) l k.
Proof.
  intros H. revert k. induction H; intros k K.
  - inversion K; constructor.
  - inversion K; subst; [constructor; auto|apply picks_no; auto; tauto].
  - apply picks_no; auto. tauto.
Qed.
Lemma picks_ext {A} (P R : A -> Prop) l m : (forall a, In a l -> (P a <-> R a)) -> picks P l m -> picks R l m.
Proof.
  intros H PK. induction PK; constructor; auto; try (apply IHPK; intros; apply H; right; auto); rewrite <- H; auto; left; auto.
Qed.
Lemma Forall2_nth_intro {A B} (R : A -> B -> Prop) l k : length l = length k ->
  (forall i a b, nth_error l i = Some a -> nth_error k i = Some b -> R a b) -> Forall2 R l k.
Proof.
  revert k. induction l as [|a l IH]; intros [|b k] L H; try discriminate; constructor; [apply (H 0); auto|]. apply IH; [cbn in L; lia|]. intros i. apply (H (S i)).
Qed.
Lemma nth_combine {A B} (l : list A) (k : list B) i x : nth_error (combine l k) i = Some x -> nth_error l i = Some (fst x) /\ nth_error k i = Some (snd x).
Proof. revert k i. induction l as [|a l IH]; intros [|b k] [|i] H; try discriminate; cbn in *; [injection H as <-; auto|auto]. Qed.
Lemma stats_transfer alpha (P : row -> Prop) (S : row -> Prop) cols cf pc rows fr_rows vs s :
  Forall2 (fun rd rv => (S rd <-> P (fst rv)) /\ (positive_row cols cf pc rd <-> py_eq (snd rv) pc = true)) rows (combine fr_rows vs) ->
  (exists covered, picks S rows covered /\ stats_of_rows alpha cols cf pc covered s) -> stats_where alpha P pc fr_rows vs s.
Proof.
  intros F (cov & PC & pos & neg & PP & PN & E1 & E2 & E3 & E4 & E5).
  assert (LEN : length cov = length neg + length pos).
  { clear -PP PN. revert neg PN. induction PP; intros neg PN; inversion PN; subst; cbn; try tauto; auto. all: match goal with K : picks _ _ _ |- _ => try (rewrite (IHPP _ K); lia) end. }
  exists (length neg), (length pos).
  assert (C1 : counted P pc fr_rows vs false true (length neg)).
  { destruct (picks_transfer (fun a => S a /\ ~ positive_row cols cf pc a) (fun ry => py_eq (snd ry) pc = false /\ (P (fst ry) <-> true = true)) rows (combine fr_rows vs)) with (l' := neg) as (k & K1 & K2).
    - eapply Forall2_imp; [|exact F]. cbv beta. intros a b [H1 H2]. rewrite H1, H2, Bool.not_true_iff_false. tauto.
    - eapply picks_picks; eauto.
    - exists k. auto. }
  assert (C2 : counted P pc fr_rows vs true true (length pos)).
  { destruct (picks_transfer (fun a => S a /\ positive_row cols cf pc a) (fun ry => py_eq (snd ry) pc = true /\ (P (fst ry) <-> true = true)) rows (combine fr_rows vs)) with (l' := pos) as (k & K1 & K2).
    - eapply Forall2_imp; [|exact F]. cbv beta. intros a b [H1 H2]. rewrite H1, H2. tauto.
    - eapply picks_picks; eauto.
    - exists k. auto. }
  split; auto. split; auto. split; auto. rewrite <- LEN.
  split; [intros Z; apply E2; destruct cov; auto; discriminate|]. split; [intros Z; apply E3; intros ->; apply Z; reflexivity|]. auto.
Qed.

Lemma forall2_calibration rs cf bt pc fr vs df : length vs = length (frows fr) -> length (frows df) = length (frows fr) ->
  good_frame df -> (forall f, mentions rs f -> usable fr cf f) ->
  (forall i rx v rd, nth_error (frows fr) i = Some rx -> nth_error vs i = Some v -> nth_error (frows df) i = Some rd ->
      value_at (fcols df) rd cf v /\ forall f w, usable fr cf f -> (value_at (fcols df) rd f w <-> sees bt (fcols fr) rx f w)) ->
  Forall2 (fun rd rv => (forall r, In r rs -> (sat_rule (fcols df) rd r <-> holds bt (fcols fr) (fst rv) r)) /\
                        (positive_row (fcols df) cf pc rd <-> py_eq (snd rv) pc = true)) (frows df) (combine (frows fr) vs).
Proof.
  intros L1 L2 GD U V. apply Forall2_nth_intro; [rewrite combine_length; lia|]. intros i rd [rx v] Hd Hx. apply nth_combine in Hx. cbn [fst snd] in *. destruct Hx as [Hx Hv].
  destruct (V i rx v rd Hx Hv Hd) as [VC VF]. split.
  - intros r I. unfold sat_rule, sat_conds, holds, sat_cond. split; intros H c Ic; destruct (H c Ic) as (w & Hw & E); exists w; split; auto; apply (VF (cfeat c)); auto; apply U; exists r, c; auto.
  - unfold positive_row. split; [|exists v; auto]. intros (w & Hw & E). destruct GD as [_ D]. apply value_at_cell in Hw; auto. apply value_at_cell in VC; auto. congruence.
Qed.
Lemma Forall2_nth_both {A B} (R : A -> B -> Prop) l k : Forall2 R l k -> forall i a b, nth_error l i = Some a -> nth_error k i = Some b -> R a b.
Proof. induction 1; intros [|i] a b Ha Hb; try discriminate; cbn in *; [congruence|eauto]. Qed.
