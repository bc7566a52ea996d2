(** * Prop_Caution.v : no predicted probability is more extreme than the number of calibration examples allows (C116) *)
From Coq Require Import Lqa.
From Verif Require Import CalFacts ProbaFacts ClfFacts SessionFacts Demo Prop_Helpers Prop_Prep Prop_Fit Prop_Classifier Prop_FitModel Prop_Text Prop_ClfProba Prop_Size Prop_Bounds.
Open Scope nat_scope.

(** the pair lies between what 0 of n and n of n examples give when smoothed with alpha *)
Definition cautious (alpha : Q) (n : nat) (p : Q * Q) : Prop :=
  (alpha / (qn n + 2 * alpha) <= fst p <= (qn n + alpha) / (qn n + 2 * alpha) /\
   alpha / (qn n + 2 * alpha) <= snd p <= (qn n + alpha) / (qn n + 2 * alpha))%Q.

Lemma div_le (a b c d : Q) : (0 < b -> 0 < d -> a * d <= c * b -> a / b <= c / d)%Q.
Proof. intros B D H. apply Qle_shift_div_r; [exact B|]. setoid_replace (c / d * b)%Q with ((c * b) / d)%Q by (field; lra). apply Qle_shift_div_l; [exact D|exact H]. Qed.
Lemma qn_le a b : a <= b -> (qn a <= qn b)%Q. Proof. intros H. unfold qn. rewrite <- Zle_Qle. lia. Qed.
Lemma smoothed_between alpha k n N : (0 < alpha)%Q -> k <= n -> n <= N ->
  (alpha / (qn N + 2 * alpha) <= (qn k + alpha) / (qn n + 2 * alpha) <= (qn N + alpha) / (qn N + 2 * alpha))%Q.
Proof.
  intros A K L. assert (K0 := qn_nonneg k). assert (KN := qn_le _ _ K). assert (NN := qn_le _ _ L). set (x := qn k) in *. set (y := qn n) in *. set (z := qn N) in *.
  split; apply div_le; try lra; nra.
Qed.
Lemma cautious_counts alpha a b N p : (0 < alpha)%Q -> a + b <= N ->
  (fst p == (qn a + alpha) / (qn (a + b) + 2 * alpha))%Q -> (snd p == (qn b + alpha) / (qn (a + b) + 2 * alpha))%Q -> cautious alpha N p.
Proof.
  intros A L E1 E2. unfold cautious. rewrite E1, E2. split; apply smoothed_between; auto; lia.
Qed.
Lemma picks_disjoint {A} (P R : A -> Prop) l : (forall a, P a -> R a -> False) -> forall k m, picks P l k -> picks R l m -> length k + length m <= length l.
Proof.
  intros D. induction l as [|a l IH]; intros k m HP HR; inversion HP; subst; inversion HR; subst; cbn [length]; try lia.
  - exfalso. eapply D; eauto.
  - specialize (IH _ _ ltac:(eassumption) ltac:(eassumption)). lia.
  - specialize (IH _ _ ltac:(eassumption) ltac:(eassumption)). lia.
  - specialize (IH _ _ ltac:(eassumption) ltac:(eassumption)). lia.
Qed.
Lemma picks_short {A} (P : A -> Prop) l l' : picks P l l' -> length l' <= length l.
Proof. induction 1; cbn [length]; lia. Qed.
Lemma cautious_rows alpha cols cf pc rows s N : (0 < alpha)%Q -> length rows <= N -> stats_of_rows alpha cols cf pc rows s -> cautious alpha N (st_smooth s).
Proof.
  intros A L (pos & neg & P & Ng & _ & _ & _ & E1 & E2). assert (D := picks_disjoint (positive_row cols cf pc) (fun rw => ~ positive_row cols cf pc rw) rows (fun a H K => K H) _ _ P Ng).
  unfold cautious. rewrite E1, E2. assert (N1 : length neg <= length rows) by lia. assert (N2 : length pos <= length rows) by lia. split; apply smoothed_between; auto.
Qed.
Lemma cautious_where alpha P pc rows vs s : (0 < alpha)%Q -> stats_where alpha P pc rows vs s -> cautious alpha (length vs) (st_smooth s).
Proof.
  intros A (neg & pos & (k & K & ->) & (m & M & ->) & _ & _ & _ & E1 & E2). eapply cautious_counts; eauto.
  assert (D := picks_disjoint _ _ (combine rows vs) (fun a H K => eq_true_false_abs _ (proj1 K) (proj1 H)) _ _ K M).
  rewrite combine_length in D. lia.
Qed.
Lemma mean_between (lo hi : Q) (f : Q * Q -> Q) (l : list (Q * Q)) m : l <> [] -> (m * qn (length l) == fold_right (fun p s => f p + s) 0 l)%Q ->
  (forall p, In p l -> (lo <= f p <= hi)%Q) -> (lo <= m <= hi)%Q.
Proof.
  intros NE M H.
  assert (K : (qn (length l) * lo <= fold_right (fun p s => f p + s) 0 l <= qn (length l) * hi)%Q).
  { clear NE M. induction l as [|p l IH]; cbn [fold_right length]; [change (qn 0) with 0%Q; lra|].
    destruct IH as [I1 I2]; [intros; apply H; right; auto|]. assert (Z := qn_plus 1 (length l)). change (1 + length l) with (S (length l)) in Z. change (qn 1) with 1%Q in Z.
    destruct (H p (or_introl eq_refl)) as [P1 P2]. rewrite Z. split; lra. }
  assert (QN : (0 < qn (length l))%Q) by (apply qn_pos; destruct l; cbn; [congruence|lia]). rewrite <- M in K. destruct K as [K1 K2]. split.
  - rewrite (Qmult_comm (qn _)) in K1. apply Qmult_le_r in K1; auto.
  - rewrite (Qmult_comm (qn _) hi) in K2. apply Qmult_le_r in K2; auto.
Qed.
Lemma mean_cautious alpha n l m : mean_of l m -> (forall p, In p l -> cautious alpha n p) -> cautious alpha n m.
Proof.
  intros (NE & M1 & M2) H. split; eapply mean_between; eauto; intros p I; apply (H p I).
Qed.
Lemma Forall2_with {A B C} (P : A -> B -> Prop) (R : A -> C -> Prop) l a b : Forall2 P l a -> Forall2 R l b -> Forall2 (fun x y => P x y /\ exists z, R x z) l a.
Proof. intros F. revert b. induction F as [|x y l a H F IH]; intros b G; inversion G; subst; constructor; eauto. Qed.
(** a classifier all of whose statistics are cautious predicts cautious probabilities *)
Lemma proba_cautious cl x cf pc sel bt X names fr alpha n :
  ready cl x cf pc sel -> c_bt cl = Some bt -> suits cl x cf sel bt X names fr -> calibrated x ->
  (forall s, rs_uncov x = Some s -> cautious alpha n (st_smooth s)) -> (forall r s, In r (rs_rules x) -> rstats r = Some s -> cautious alpha n (st_smooth s)) ->
  exists probas reasons, snd (clf_predict_proba cl X names) = Ok (probas, reasons) /\ length probas = length (frows fr) /\ Forall (cautious alpha n) probas.
Proof.
  intros R B S C HU HR. destruct (C40_classifier_proba _ _ _ _ _ _ _ _ _ R B S C) as (probas & reasons & unc & E & EU & _ & _ & F). exists probas, reasons. rewrite E. split; [reflexivity|].
  split; [symmetry; eapply Forall2_length; exact F|]. clear E. specialize (HU unc EU).
  enough (K : Forall2 (fun (_ : row) pr => cautious alpha n pr) (frows fr) probas) by (clear -K; induction K; constructor; auto).
  destruct (C01_classifier_predict _ _ _ _ _ _ _ _ _ R B S) as (preds & _ & G).
  eapply Forall2_imp; [|exact (Forall2_with _ _ _ _ _ F G)]. cbv beta. intros rw pr [ [U M] [b Hb] ].
  assert (D : some_holds bt (fcols fr) rw (rs_rules x) \/ ~ some_holds bt (fcols fr) rw (rs_rules x)) by (destruct b; [left; apply Hb; reflexivity|right; intros Z; apply Hb in Z; discriminate]). destruct D as [D|D].
  - destruct (M D) as (cov & ps & PK & FP & MP). eapply mean_cautious; [exact MP|]. intros p I. destruct (Forall2_In_r _ _ _ _ FP I) as (r & Ir & s & E1 & <-).
    apply (HR r s); [|exact E1]. apply (proj1 (picks_In _ _ _ _ PK)). exact Ir.
  - destruct (U D) as [E1 E2]. unfold cautious. rewrite E1, E2. exact HU.
Qed.

(** C116 (after fit). Whatever the engine and the initial model, on any usable data every probability a freshly fitted classifier predicts, for either class,
    lies between alpha / (N + 2 alpha) and (N + alpha) / (N + 2 alpha), where N is the number of training examples. *)
Theorem C116_fit : forall w cl X y cf pc names init cnopt kw f vs ix cl' x p sel bt X2 names2 fr,
  world_ok w -> training_input X y cf names f vs ix -> NoDup ix ->
  let h := hyper_of cl kw in
  (0 <= h_prune h)%Q -> (h_prune h <= 1)%Q -> (h_nbins h = None \/ exists n, h_nbins h = Some n /\ (0 <= n)%Z) -> (0 < h_alpha h)%Q ->
  fit w cl X y cf pc names init cnopt kw = (cl', Ok tt) ->
  ready cl' x f p sel -> c_bt cl' = Some bt -> suits cl' x f sel bt X2 names2 fr ->
  exists probas reasons, snd (clf_predict_proba cl' X2 names2) = Ok (probas, reasons) /\ length probas = length (frows fr) /\
    Forall (cautious (h_alpha h) (length vs)) probas.
Proof.
  intros w cl X y cf pc names init cnopt kw f vs ix cl' x p sel bt X2 names2 fr WO T ND h P0 P1 NB A H R B S.
  destruct (fit_trained _ _ _ _ _ _ _ _ _ _ _ _ _ _ WO T ND P0 P1 NB H) as (df & df0 & p0 & bt' & xi & x1 & x2 & xx & pp & nn & p' & n' & FT & G & L & HC & TD & TR & ST).
  pose proof (pre_good _ _ _ _ _ _ _ _ _ _ _ _ _ _ _ WO (nbins_fine_ok _ NB) T ND (ft_pre _ _ _ _ _ _ _ _ _ _ _ _ _ _ _ _ _ _ FT)) as (_ & _ & _ & _ & _ & CV & _).
  destruct FT as [FP FI FTR FF FR FC FPC FB FS FA FH FCl FFe]. rewrite (rd_rs _ _ _ _ _ R) in FR. injection FR as ->.
  assert (C : column_present df f) by (apply has_col_iff; auto).
  assert (LV : length (frows df) = length vs) by (rewrite <- CV, TransFacts.column_length; [reflexivity|apply G|exact HC]).
  assert (K : exists xb x', recalibrate (h_alpha h) xb df f p0 = Ok x' /\ rs_uncov x2 = rs_uncov x' /\ sublist (rs_rules x2) (rs_rules x')).
  { destruct (c_alg cl); cbn [finish] in FF.
    - binv FF. injection FF as <-. exists x1. eexists. split; [eassumption|]. unfold dedupe_trim, set_rules. cbn [rs_uncov rs_rules]. split; [reflexivity|apply kept_sublist].
    - eexists. exists x2. split; [exact FF|]. split; [reflexivity|apply sublist_refl]. }
  destruct K as (xb & x' & ER & EU & SU). destruct (recal_exact _ _ _ _ _ _ A G L C ER) as (R1 & (s & unc & E1 & PK & SS) & _).
  assert (U : rs_uncov x2 = Some s) by congruence.
  apply (proba_cautious cl' x2 f p sel bt X2 names2 fr); auto.
  - split; [exists s; split; [exact U|eapply stats_probabilities; eauto]|]. intros r I. destruct (R1 r (sublist_In _ _ _ SU I)) as (s1 & cov & Z1 & Z2 & Z3). exists s1. split; [exact Z1|eapply stats_probabilities; eauto].
  - intros s0 Z. rewrite U in Z. injection Z as <-. eapply cautious_rows; [exact A| |exact SS]. rewrite <- LV. eapply picks_short; eauto.
  - intros r s0 I Z. destruct (R1 r (sublist_In _ _ _ SU I)) as (s1 & cov & Z1 & Z2 & Z3). rewrite Z1 in Z. injection Z as ->. eapply cautious_rows; [exact A| |exact Z3]. rewrite <- LV. eapply picks_short; eauto.
Qed.
Print Assumptions C116_fit.

(** C116 (after recalibrate_proba). The same with the number of examples given to recalibrate_proba. *)
Theorem C116_recalibrate : forall cl x cf pc sel bt X y names fr vs ms rm (discretize : bool) X2 names2 fr2 bt2 cl',
  ready cl x cf pc sel -> (if discretize then c_bt cl = Some bt else bt = bt_empty) -> (0 < h_alpha (c_hyper cl))%Q -> calibrates (rs_rules x) cf bt X y names fr vs ->
  clf_recalibrate cl X y names ms rm discretize = (cl', Ok tt) ->
  forall x', ready cl' x' cf pc sel -> c_bt cl' = Some bt2 -> suits cl' x' cf sel bt2 X2 names2 fr2 ->
  exists probas reasons, snd (clf_predict_proba cl' X2 names2) = Ok (probas, reasons) /\ length probas = length (frows fr2) /\
    Forall (cautious (h_alpha (c_hyper cl)) (length vs)) probas.
Proof.
  intros cl x cf pc sel bt X y names fr vs ms rm d X2 names2 fr2 bt2 cl' R B A CA E x' R' B' S.
  destruct (C41_classifier_recalibrate cl x cf pc bt X y names fr vs ms rm d (rd_rs _ _ _ _ _ R) (rd_cf _ _ _ _ _ R) (rd_pc _ _ _ _ _ R) B A CA) as (x2 & E2 & C & _ & FR & s & U & SW).
  rewrite E in E2. injection E2 as ->. assert (X2' := rd_rs _ _ _ _ _ R'). cbn [c_rs set_rs] in X2'. injection X2' as ->.
  apply (proba_cautious (set_rs cl x') x' cf pc sel bt2 X2 names2 fr2); auto.
  - intros s0 Z. rewrite U in Z. injection Z as <-. eapply cautious_where; eauto.
  - intros r s0 I Z. destruct (Forall2_In_r _ _ _ _ FR I) as (r0 & I0 & _ & s1 & Z1 & Z2). rewrite Z1 in Z. injection Z as ->. eapply cautious_where; eauto.
Qed.
Print Assumptions C116_recalibrate.

(** Non-vacuity: six training examples, alpha = 1: nothing outside [1/8, 7/8]; the predictions are 5/6 and 1/4 *)
Example C116_nonvacuous : exists probas reasons, snd (clf_predict_proba people_clf (DFrame newcomers) None) = Ok (probas, reasons) /\ length probas = 3 /\
  Forall2 eq_pair probas [(1#6, 5#6); (3#4, 1#4); (1#6, 5#6)]%Q /\ Forall (fun p => 1#8 <= fst p <= 7#8 /\ 1#8 <= snd p <= 7#8)%Q probas.
Proof.
  edestruct (C116_fit w1 irep_bins2 (DRows people) (Some people_y) None None (Some [s_ "u"; s_ "v"]) MNone true [] (s_ "t") (y_vals people_y) [10; 11; 12; 13; 14; 15] people_clf people_rules (PInt 1) [s_ "v"] people_bt (DFrame newcomers) None newcomers)
    as (probas & reasons & E & L & F); [exact w1_ok|exact people_input|exact people_nodup|discriminate|discriminate|right; eexists; split; [reflexivity|discriminate]|reflexivity|vm_compute; reflexivity|exact people_ready|vm_compute; reflexivity|exact people_suits|].
  exists probas, reasons. split; [exact E|]. split; [exact L|]. split.
  - assert (E' := E). vm_compute in E'. injection E' as <- <-. repeat constructor; vm_compute; reflexivity.
  - eapply Forall_impl; [|exact F]. intros q [Q1 Q2]. split; [exact Q1|exact Q2].
Qed.
Example C116_recalibrate_nonvacuous : exists cl' probas reasons, clf_recalibrate people_clf (DFrame newcomers) None None (Some 20%Z) true true = (cl', Ok tt) /\
  snd (clf_predict_proba cl' (DFrame newcomers) None) = Ok (probas, reasons) /\ Forall (fun p => 1#5 <= fst p <= 4#5 /\ 1#5 <= snd p <= 4#5)%Q probas.
Proof.
  destruct (C41_classifier_recalibrate people_clf people_rules (s_ "t") (PInt 1) people_bt (DFrame newcomers) None None newcomers _ (Some 20%Z) true true eq_refl eq_refl eq_refl eq_refl eq_refl people_calibrates)
    as (x' & E & _ & _ & FR & _).
  assert (M : map conds (rs_rules x') = map conds (rs_rules people_rules)) by (apply map_conds_forall; clear -FR; induction FR as [|a b l l' H F IH]; constructor; auto; apply H).
  edestruct (C116_recalibrate people_clf people_rules (s_ "t") (PInt 1) [s_ "v"] people_bt (DFrame newcomers) None None newcomers [PInt 1; PInt 0; PInt 0] (Some 20%Z) true true (DFrame newcomers) None newcomers people_bt (set_rs people_clf x'))
    with (x' := x') as (probas & reasons & E2 & _ & F); auto.
  - exact people_ready.
  - vm_compute. reflexivity.
  - exact people_calibrates.
  - destruct people_ready as [A1 A2 A3 A4 A5]. constructor; auto.
  - destruct people_suits as [S1 S2 S3 S4 S5 S6 S7 S8]. constructor; auto. intros f (r & c & I & J & ->). apply S8. destruct (Forall2_In_r _ _ _ _ FR I) as (r0 & I0 & Q & _). exists r0, c. rewrite <- Q. auto.
  - eexists. exists probas, reasons. split; [exact E|]. split; [exact E2|]. eapply Forall_impl; [|exact F]. intros q [Q1 Q2]. split; [exact Q1|exact Q2].
Qed.
