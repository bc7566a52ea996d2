(** * Prop_Past.v : C107 -- after a successful recalibration the past of the model does not matter *)
From Verif Require Import SessionFacts HeapFacts Prop_Session Prop_Fit Prop_FitModel Prop_ClfProba Demo.
Open Scope nat_scope.

Lemma sel_same l l' : map conds l = map conds l' -> selected_features l = selected_features l'.
Proof. intros E. unfold selected_features. f_equal. rewrite !flat_map_concat_map. f_equal. rewrite <- !(map_map conds (map cfeat)). rewrite E. reflexivity. Qed.
Lemma class_stats_same alpha fr cf pc r r' : conds r = conds r' -> rule_class_stats alpha fr cf pc r = rule_class_stats alpha fr cf pc r'.
Proof. intros E. unfold rule_class_stats. rewrite (rule_covers_conds r r' fr E), E. reflexivity. Qed.
Lemma stats_same_run alpha fr cf pc l : forall l' , map conds l = map conds l' -> mapM (rule_class_stats alpha fr cf pc) l = mapM (rule_class_stats alpha fr cf pc) l'.
Proof.
  induction l as [|r t IH]; intros [|r' t'] E; try discriminate; auto. injection E as E1 E2. cbn [mapM]. rewrite (class_stats_same _ _ _ _ _ _ E1), (IH _ E2). reflexivity.
Qed.
Definition same_knowledge (o o' : res ruleset) : Prop :=
  match o, o' with Ok x, Ok x' => rs_rules x = rs_rules x' /\ rs_uncov x = rs_uncov x' | Err e, Err e' => e = e' | _, _ => False end.
Lemma recal_same alpha x x' fr cf pc : map conds (rs_rules x) = map conds (rs_rules x') -> same_knowledge (recalibrate alpha x fr cf pc) (recalibrate alpha x' fr cf pc).
Proof.
  intros E. unfold recalibrate. rewrite (sel_same _ _ E), (stats_same_run alpha fr cf pc _ _ E), (rs_covers_conds _ _ fr E). destruct (check_features _ _); cbn [bind same_knowledge]; auto.
  destruct (mapM _ _); cbn [bind same_knowledge]; auto. destruct (rs_covers _ _); cbn [bind same_knowledge]; auto. destruct (num_neg _ _ _); cbn [bind same_knowledge]; auto.
  destruct (smoothed _ _ _) as [sm|]; cbn [bind same_knowledge]; auto.
Qed.
Definition same_result (a b : clf * res unit) : Prop :=
  snd a = snd b /\ (snd a = Ok tt -> exists x y, c_rs (fst a) = Some x /\ c_rs (fst b) = Some y /\ rs_rules x = rs_rules y /\ rs_uncov x = rs_uncov y).
Lemma recal_run_same ms rm ms' rm' alpha x x' fr cf pc : map conds (rs_rules x) = map conds (rs_rules x') ->
  let a := recalibrate_run ms rm alpha x fr cf pc in let b := recalibrate_run ms' rm' alpha x' fr cf pc in
  snd a = snd b /\ (snd a = Ok tt -> rs_rules (fst a) = rs_rules (fst b) /\ rs_uncov (fst a) = rs_uncov (fst b)).
Proof.
  intros E. unfold recalibrate_run. rewrite !recalibrate_min_eq, <- (sel_same _ _ E). destruct (check_features _ _); cbv zeta; [|split; [reflexivity|discriminate]].
  assert (S := recal_same alpha x x' fr cf pc E). destruct (recalibrate alpha x fr cf pc) as [a1|], (recalibrate alpha x' fr cf pc) as [b1|]; cbn [same_knowledge] in S; try contradiction.
  - split; auto.
  - subst. split; [reflexivity|discriminate].
Qed.

(** ** C107. Two classifiers with the same rules, class column, positive class, alpha and (unless discretize=False) bins, whatever statistics they hold and
    however they came about: recalibrating them on the same data has the same outcome, and if it succeeds both hold the same statistics. *)
Theorem C107_same_rules : forall c1 c2 X y names ms rm ms' rm' discretize,
  rules_of c1 = rules_of c2 -> c_cf c1 = c_cf c2 -> c_pc c1 = c_pc c2 -> h_alpha (c_hyper c1) = h_alpha (c_hyper c2) -> (discretize = true -> c_bt c1 = c_bt c2) ->
  let r1 := clf_recalibrate c1 X y names ms rm discretize in let r2 := clf_recalibrate c2 X y names ms' rm' discretize in
  snd r1 = snd r2 /\
  (snd r1 = Ok tt -> exists x1 x2, c_rs (fst r1) = Some x1 /\ c_rs (fst r2) = Some x2 /\ rs_rules x1 = rs_rules x2 /\ rs_uncov x1 = rs_uncov x2).
Proof.
  intros c1 c2 X y names ms rm ms' rm' d R F P A B. cbv zeta. unfold clf_recalibrate. rewrite <- F, <- P, <- A.
  assert (Q : (if d then b <- attr (c_bt c1) ;; Ok (Some b) else Ok None) = (if d then b <- attr (c_bt c2) ;; Ok (Some b) else Ok None)).
  { destruct d; [rewrite B by reflexivity; reflexivity|reflexivity]. }
  rewrite <- Q. destruct (c_cf c1) as [f|]; [|split; [reflexivity|discriminate]]. destruct (c_pc c1) as [p|]; [|split; [reflexivity|discriminate]].
  destruct (if d then _ else _) as [bt|]; [|split; [reflexivity|discriminate]]. destruct (preprocess_recalibrate _ _ _ _ _) as [df|]; [|split; [reflexivity|discriminate]].
  unfold rules_of in R. destruct (c_rs c1) as [x1|] eqn:E1, (c_rs c2) as [x2|] eqn:E2; cbn [option_map] in R; try discriminate R; [|split; [reflexivity|discriminate]].
  assert (R' : map conds (rs_rules x1) = map conds (rs_rules x2)) by congruence.
  destruct (recal_run_same ms rm ms' rm' (h_alpha (c_hyper c1)) x1 x2 df f p R') as [O K].
  destruct (recalibrate_run ms rm _ x1 df f p) as [a oa], (recalibrate_run ms' rm' _ x2 df f p) as [b ob]. cbn [fst snd] in *. split; auto. intros S. specialize (K S).
  exists a, b. repeat split; try reflexivity; apply K.
Qed.
Print Assumptions C107_same_rules.

(** ** C107: with the same feature lists and bins too, the probabilities and their reasons agree afterwards on all data. *)
Theorem C107_same_probabilities : forall c1 c2 X y names ms rm ms' rm' discretize X2 names2,
  rules_of c1 = rules_of c2 -> c_cf c1 = c_cf c2 -> c_pc c1 = c_pc c2 -> h_alpha (c_hyper c1) = h_alpha (c_hyper c2) -> c_bt c1 = c_bt c2 ->
  c_sel c1 = c_sel c2 -> c_feats c1 = c_feats c2 ->
  snd (clf_recalibrate c1 X y names ms rm discretize) = Ok tt ->
  snd (clf_predict_proba (fst (clf_recalibrate c1 X y names ms rm discretize)) X2 names2) =
  snd (clf_predict_proba (fst (clf_recalibrate c2 X y names ms' rm' discretize)) X2 names2).
Proof.
  intros c1 c2 X y names ms rm ms' rm' d X2 names2 R F P A B S FE O.
  destruct (C107_same_rules c1 c2 X y names ms rm ms' rm' d R F P A (fun _ => B)) as [O2 K]. destruct (K O) as (x1 & x2 & R1 & R2 & RR & UU). clear K.
  destruct (clf_recalibrate c1 X y names ms rm d) as [d1 o1] eqn:E1. destruct (clf_recalibrate c2 X y names ms' rm' d) as [d2 o2] eqn:E2. cbn [fst snd] in *.
  apply recal_attrs in E1, E2. destruct E1 as (A1 & A2 & A3 & A4 & A5 & _), E2 as (B1 & B2 & B3 & B4 & B5 & _).
  unfold clf_predict_proba. rewrite R1, R2. unfold prediction_frame. rewrite A1, A2, A3, A4, A5, B1, B2, B3, B4, B5, F, P, B, S, FE.
  destruct (bind (attr (c_bt c2)) _) as [ [df p]|]; cbn [snd]; auto. unfold rs_predict_proba. rewrite RR, UU. reflexivity.
Qed.
Print Assumptions C107_same_probabilities.

(** ** C107, histories: whatever calls that leave the rules alone came before - predictions, scores, statistics, earlier recalibrations, failed ones
    included - a recalibration has the outcome it would have had at once, and a successful one leaves the same statistics. *)
Definition keeps_parameters (k : call) : Prop := prediction_side k /\ forall kw, k <> SetParams kw.
Lemma keeps_hyper w k cl cl' o : keeps_parameters k -> perform w cl k = (cl', o) -> c_hyper cl' = c_hyper cl.
Proof.
  intros [S N] H. destruct k; cbn [prediction_side] in S; try contradiction; cbn [perform] in H.
  - unfold clf_predict in H. destruct (c_rs cl) eqn:R; [|injection H as <- _; auto]. unfold ensure_bt in H. rewrite R in H. destruct (c_bt cl); injection H as <- _; reflexivity.
  - unfold clf_predict_reasons in H. destruct (c_rs cl) eqn:R; [|injection H as <- _; auto]. unfold ensure_bt in H. rewrite R in H. destruct (c_bt cl); injection H as <- _; reflexivity.
  - unfold clf_predict_proba in H. destruct (c_rs cl); [|injection H as <- _; auto]. destruct (bind _ _) as [ [? ?]|]; injection H as <- _; reflexivity.
  - unfold clf_score, clf_predict in H. destruct (c_rs cl) eqn:R; [|injection H as <- _; auto]. unfold ensure_bt in H. rewrite R in H. destruct (c_bt cl); injection H as <- _; reflexivity.
  - unfold clf_rule_stats in H. destruct (c_rs cl) eqn:R; [|injection H as <- _; auto]. unfold ensure_bt in H. rewrite R in H. destruct (c_bt cl); injection H as <- _; reflexivity.
  - destruct (clf_recalibrate _ _ _ _ _ _ _) eqn:E. injection H as <- _. apply recal_attrs in E. apply E.
  - destruct (N kw eq_refl).
Qed.
Lemma history_same w ks : forall cl cl' os, Forall keeps_parameters ks -> perform_all w cl ks = (cl', os) -> same_model cl cl' /\ c_hyper cl' = c_hyper cl.
Proof.
  induction ks as [|k t IH]; intros cl cl' os F H; cbn [perform_all] in H; [injection H as <- _; split; [apply same_refl|reflexivity]|]. inversion F as [|? ? F1 F2]; subst.
  destruct (perform w cl k) as [c1 o] eqn:E1. destruct (perform_all w c1 t) as [c2 os2] eqn:E2. injection H as <- _. destruct (IH _ _ _ F2 E2) as [S1 S2].
  split; [|rewrite S2; eapply keeps_hyper; eauto]. eapply same_trans; [|exact S1]. destruct F1. eapply prediction_side_same; eauto.
Qed.
Theorem C107_history : forall w ks cl cl' os bt X y names ms rm discretize,
  Forall keeps_parameters ks -> perform_all w cl ks = (cl', os) -> c_bt cl = Some bt ->
  let at_once := clf_recalibrate cl X y names ms rm discretize in let later := clf_recalibrate cl' X y names ms rm discretize in
  snd later = snd at_once /\
  (snd at_once = Ok tt ->
   (exists x1 x2, c_rs (fst at_once) = Some x1 /\ c_rs (fst later) = Some x2 /\ rs_rules x1 = rs_rules x2 /\ rs_uncov x1 = rs_uncov x2) /\
   forall X2 names2, snd (clf_predict_proba (fst at_once) X2 names2) = snd (clf_predict_proba (fst later) X2 names2)).
Proof.
  intros w ks cl cl' os bt X y names ms rm d F H B. cbv zeta. destruct (history_same _ _ _ _ _ F H) as [[SA SR SC SP SS SF SB] SH].
  specialize (SB bt B). assert (BB : c_bt cl = c_bt cl') by congruence.
  destruct (C107_same_rules cl cl' X y names ms rm ms rm d) as [O K]; auto; [rewrite SH; reflexivity|]. split; [auto|]. intros OK. split; [apply K; exact OK|]. intros X2 names2.
  apply C107_same_probabilities; auto. rewrite SH. reflexivity.
Qed.
Print Assumptions C107_history.

(** example: the fitted classifier of Prop_FitModel, recalibrated on other people's data, on data it cannot use (which raises), then on [newcomers];
    and a second recalibration on the same data *)
Definition swapped : ydata := YList [PInt 0; PInt 1; PInt 1].
Definition past : list call := [Recalibrate (DFrame newcomers) (Some swapped) None None false true; Recalibrate (DFrame only_u) (Some people_y) None None false true;
  PredictProba (DFrame newcomers) None].
Example C107_nonvacuous : Forall keeps_parameters past /\
  snd (perform_all w1 people_clf past) = [None; Some IndexError; None] /\
  snd (clf_recalibrate people_clf (DFrame newcomers) (Some newcomers_y) None None false true) = Ok tt /\
  snd (clf_predict_proba (fst (perform_all w1 people_clf past)) (DFrame newcomers) None) <>
    snd (clf_predict_proba (fst (clf_recalibrate (fst (perform_all w1 people_clf past)) (DFrame newcomers) (Some newcomers_y) None None false true)) (DFrame newcomers) None).
Proof.
  split; [repeat constructor; discriminate|]. split; [vm_compute; reflexivity|]. split; [vm_compute; reflexivity|]. vm_compute. discriminate.
Qed.
