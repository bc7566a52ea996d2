(** * Prop_Useful.v : C87, C88 -- every condition and every rule that training adds does some work on the training data *)
From Verif Require Import Useful FitRun Prop_Fit Prop_FitModel Prop_Irep Prop_Ripper Demo Prop_Helpers Prop_Fires.
From Verif Require Import ProbaSpec ProbaFacts ClfSpec ClfFacts.
Open Scope nat_scope.

(** ** Counting *)
Lemma works_count (df : frame) cf pc cs : (forall a c b, cs = a ++ c :: b -> exists rw, turned_away df cf pc a c rw) ->
  distinct_cols (fcols df) -> exists rws, length rws = length cs /\ NoDup rws /\ forall rw, In rw rws -> In rw (frows df) /\ ~ positive_row (fcols df) cf pc rw.
Proof.
  intros H D.
  assert (K : forall a b, cs = a ++ b -> exists rws, length rws = length b /\ NoDup rws /\
    forall rw, In rw rws -> In rw (frows df) /\ ~ positive_row (fcols df) cf pc rw /\ sat_conds (fcols df) rw a).
  { intros a b. revert a. induction b as [|c b IH]; intros a Q.
    - exists []. split; auto. split; [constructor|]. intros ? [].
    - destruct (IH (a ++ [c])) as (rws & L & N & R); [rewrite Q, <- app_assoc; reflexivity|].
      destruct (H a c b Q) as (rw & I & NP & SA & v & V & Qv). exists (rw :: rws). split; [cbn; congruence|]. split.
      + constructor; auto. intros J. destruct (R _ J) as (_ & _ & S). destruct (S c) as (v' & V' & Qv'); [apply in_or_app; cbn; auto|].
        apply cell_value_at in V, V'; auto. congruence.
      + intros rw' [<-|J]; [auto|]. destruct (R _ J) as (A & B & S). split; auto. split; auto. intros d Id. apply S. apply in_or_app; auto. }
  destruct (K [] cs eq_refl) as (rws & L & N & R). exists rws. split; auto. split; auto. intros rw I. destruct (R rw I). tauto.
Qed.
Lemma rules_count (df : frame) cf pc rs : every_rule_works df cf pc rs ->
  exists rws, length rws = length rs /\ NoDup rws /\ forall rw, In rw rws -> In rw (frows df) /\ positive_row (fcols df) cf pc rw.
Proof.
  intros H.
  assert (K : forall a b, rs = a ++ b -> exists rws, length rws = length b /\ NoDup rws /\
    forall rw, In rw rws -> In rw (frows df) /\ positive_row (fcols df) cf pc rw /\ forall s, In s a -> ~ sat_rule (fcols df) rw s).
  { intros a b. revert a. induction b as [|r b IH]; intros a Q.
    - exists []. split; auto. split; [constructor|]. intros ? [].
    - destruct (IH (a ++ [r])) as (rws & L & N & R); [rewrite Q, <- app_assoc; reflexivity|].
      destruct (H a r b Q) as (rw & I & PR & S & NS). exists (rw :: rws). split; [cbn; congruence|]. split.
      + constructor; auto. intros J. destruct (R _ J) as (_ & _ & S'). apply (S' r); [apply in_or_app; cbn; auto|exact S].
      + intros rw' [<-|J]; [auto|]. destruct (R _ J) as (A & B & S'). split; auto. split; auto. intros s Is. apply S'. apply in_or_app; auto. }
  destruct (K [] rs eq_refl) as (rws & L & N & R). exists rws. split; auto. split; auto. intros rw I. destruct (R rw I). tauto.
Qed.
Lemma sublist_at {A} (l l' : list A) : sublist l' l -> forall u r v, l' = u ++ r :: v -> exists u' v', l = u' ++ r :: v' /\ incl u u'.
Proof.
  induction 1 as [|a l' l S IH|a l' l S IH]; intros u r v Q.
  - destruct u; discriminate.
  - destruct u as [|b u]; cbn in Q; injection Q as -> Q.
    + eexists []. eexists. split; [reflexivity|apply incl_refl].
    + destruct (IH u r v Q) as (u' & v' & -> & I). exists (b :: u'), v'. split; auto. intros z [<-|Iz]; [left; auto|right; auto].
  - destruct (IH u r v Q) as (u' & v' & -> & I). exists (a :: u'), v'. split; auto. intros z Iz. right. auto.
Qed.
Lemma works_sublist df cf pc l l' : sublist l' l -> every_rule_works df cf pc l -> every_rule_works df cf pc l'.
Proof.
  intros S H u r v Q. destruct (sublist_at _ _ S u r v Q) as (u' & v' & Q' & I). destruct (H u' r v' Q') as (rw & A1 & A2 & A3 & A4). exists rw. repeat (split; auto).
Qed.
Lemma works_conds df cf pc l l' : Forall2 same_conds l' l -> every_rule_works df cf pc l -> every_rule_works df cf pc l'.
Proof.
  intros F H u r v Q. subst l'. apply Forall2_app_inv_l in F. destruct F as (l1 & l2 & F1 & F2 & ->). inversion F2 as [|? r0 ? l3 R F3]; subst.
  destruct (H l1 r0 l3 eq_refl) as (rw & A1 & A2 & A3 & A4). exists rw. split; auto. split; auto. unfold same_conds in R. split; [unfold sat_rule in *; rewrite R; exact A3|].
  intros s Is S. apply (Forall2_In_l _ _ _ _ F1) in Is. destruct Is as (s0 & Is & R0). unfold same_conds in R0. apply (A4 s0 Is). unfold sat_rule in *. rewrite <- R0. exact S.
Qed.

(** C87. Every condition of a rule that training makes turns away at least one negative training example that the conditions
    before it let through: none can be dropped without changing what the rule does on the training data.
    IREP adds such rules after the rules of the initial model; RIPPER (started without a model) returns only such rules. *)
Theorem C87_irep_conditions_work : forall e h cnopt df cf pc x p n p' n' init rs,
  setting e h df cf pc x p n p' n' -> irep_train e h cnopt df cf pc init = Ok rs ->
  exists new, rs_rules rs = rs_rules init ++ new /\ forall r, In r new -> every_condition_works df cf pc r.
Proof. intros e h cnopt df cf pc x p n p' n' init rs ST H. destruct (irep_works ST _ _ _ H) as (new & Q & K & _). eauto. Qed.
Print Assumptions C87_irep_conditions_work.
Theorem C87_ripper_conditions_work : forall e h cnopt df cf pc x p n p' n' rs r,
  setting e h df cf pc x p n p' n' -> ripper_train e h cnopt df cf pc (Ruleset_ []) = Ok rs -> In r (rs_rules rs) -> every_condition_works df cf pc r.
Proof. intros e h cnopt df cf pc x p n p' n' rs r ST H I. eapply ripper_works; eauto. Qed.
Print Assumptions C87_ripper_conditions_work.

Lemma fit_works w cl X y cf pc names cnopt kw f vs ix cl' x r : world_ok w -> training_input X y cf names f vs ix -> NoDup ix ->
  (0 <= h_prune (hyper_of cl kw))%Q -> (h_prune (hyper_of cl kw) <= 1)%Q -> nbins_fine (h_nbins (hyper_of cl kw)) ->
  fit w cl X y cf pc names MNone cnopt kw = (cl', Ok tt) -> c_rs cl' = Some x -> In r (rs_rules x) ->
  exists bt table binned_table p, c_bt cl' = Some bt /\ c_pc cl' = Some p /\ training_df X y f names = Ok table /\ transform bt table = Ok binned_table /\
    good_frame binned_table /\ distinct_labels binned_table /\ every_condition_works binned_table f p r.
Proof.
  intros WO T ND P0 P1 NB H RS I.
  destruct (fit_trained _ _ _ _ _ _ _ _ _ _ _ _ _ _ WO T ND P0 P1 NB H) as (df & df0 & p & bt & xi & x1 & x2 & xx & pp & nn & p' & n' & FT & G & L & HC & TD & TR & ST).
  destruct FT as [FP FI FTR FF FR FC FPC FB FS FA FH FCl FFe]. rewrite FR in RS. injection RS as <-. cbn in FI. injection FI as <-.
  destruct (finish_In _ _ _ _ _ _ _ _ _ FF I) as (r1 & I1 & EC). exists bt, df0, df, p. do 6 (split; [auto|]). unfold every_condition_works. rewrite EC.
  change (every_condition_works df f p r1). destruct (c_alg cl); cbn [train] in FTR.
  - destruct (irep_works ST _ _ _ FTR) as (new & Q & K & _). cbn [rs_rules Ruleset_ app] in Q. apply K. rewrite <- Q. exact I1.
  - eapply (ripper_works ST); eauto.
Qed.
(** ... and so does every rule of a classifier fitted without an initial model, on the training table as the fitted discretiser sees it *)
Theorem C87_fit_conditions_work : forall w cl X y cf pc names cnopt kw f vs ix cl' x r,
  world_ok w -> training_input X y cf names f vs ix -> NoDup ix ->
  let h := hyper_of cl kw in
  (0 <= h_prune h)%Q -> (h_prune h <= 1)%Q -> (h_nbins h = None \/ exists n, h_nbins h = Some n /\ (0 <= n)%Z) ->
  fit w cl X y cf pc names MNone cnopt kw = (cl', Ok tt) -> c_rs cl' = Some x -> In r (rs_rules x) ->
  exists bt table binned_table p, c_bt cl' = Some bt /\ c_pc cl' = Some p /\ training_df X y f names = Ok table /\ transform bt table = Ok binned_table /\
    forall before c after, conds r = before ++ c :: after -> exists rw, turned_away binned_table f p before c rw.
Proof.
  intros w cl X y cf pc names cnopt kw f vs ix cl' x r WO T ND h P0 P1 NB H RS I.
  destruct (fit_works _ _ _ _ _ _ _ _ _ _ _ _ _ _ _ WO T ND P0 P1 NB H RS I) as (bt & t & bt' & p & A1 & A2 & A3 & A4 & A5 & A6 & A7).
  exists bt, t, bt', p. do 4 (split; [auto|]). exact A7.
Qed.
Print Assumptions C87_fit_conditions_work.
(** Consequences for such a classifier: a rule never has more conditions than there are negative training examples ... *)
Theorem C87_no_longer_than_negatives : forall w cl X y cf pc names cnopt kw f vs ix cl' x r,
  world_ok w -> training_input X y cf names f vs ix -> NoDup ix ->
  let h := hyper_of cl kw in
  (0 <= h_prune h)%Q -> (h_prune h <= 1)%Q -> (h_nbins h = None \/ exists n, h_nbins h = Some n /\ (0 <= n)%Z) ->
  fit w cl X y cf pc names MNone cnopt kw = (cl', Ok tt) -> c_rs cl' = Some x -> In r (rs_rules x) ->
  exists bt table binned_table p, c_bt cl' = Some bt /\ c_pc cl' = Some p /\ training_df X y f names = Ok table /\ transform bt table = Ok binned_table /\
    forall neg, picks (fun rw => ~ positive_row (fcols binned_table) f p rw) (frows binned_table) neg -> length (conds r) <= length neg.
Proof.
  intros w cl X y cf pc names cnopt kw f vs ix cl' x r WO T ND h P0 P1 NB H RS I.
  destruct (fit_works _ _ _ _ _ _ _ _ _ _ _ _ _ _ _ WO T ND P0 P1 NB H RS I) as (bt & t & bt' & p & A1 & A2 & A3 & A4 & [_ A5] & A6 & A7).
  exists bt, t, bt', p. do 4 (split; [auto|]). intros neg PK. destruct (works_count _ _ _ _ A7 A5) as (rws & L & N & R). rewrite <- L. apply NoDup_incl_length; auto.
  intros rw Ir. apply (picks_In _ _ _ _ PK). apply R. exact Ir.
Qed.
Print Assumptions C87_no_longer_than_negatives.
(** ... and no rule tests a feature that has the same value in every training example (in the discretised table) *)
Theorem C87_no_constant_feature : forall w cl X y cf pc names cnopt kw f vs ix cl' x r c,
  world_ok w -> training_input X y cf names f vs ix -> NoDup ix ->
  let h := hyper_of cl kw in
  (0 <= h_prune h)%Q -> (h_prune h <= 1)%Q -> (h_nbins h = None \/ exists n, h_nbins h = Some n /\ (0 <= n)%Z) ->
  fit w cl X y cf pc names MNone cnopt kw = (cl', Ok tt) -> c_rs cl' = Some x -> In r (rs_rules x) -> In c (conds r) ->
  exists bt table binned_table rw1 rw2 v1 v2, c_bt cl' = Some bt /\ training_df X y f names = Ok table /\ transform bt table = Ok binned_table /\
    In rw1 (frows binned_table) /\ In rw2 (frows binned_table) /\ value_at (fcols binned_table) rw1 (cfeat c) v1 /\ value_at (fcols binned_table) rw2 (cfeat c) v2 /\
    py_eq v1 (cval c) = true /\ py_eq v2 (cval c) = false.
Proof.
  intros w cl X y cf pc names cnopt kw f vs ix cl' x r c WO T ND h P0 P1 NB H RS I Ic.
  destruct (fit_works _ _ _ _ _ _ _ _ _ _ _ _ _ _ _ WO T ND P0 P1 NB H RS I) as (bt & t & bt' & p & A1 & A2 & A3 & A4 & _ & A6 & A7).
  destruct (fit_rules _ _ _ _ _ _ _ _ _ _ _ _ _ _ _ WO T ND P0 P1 NB H RS I) as [S (bt0 & t0 & bt0' & p0 & rw & B1 & B2 & B3 & B4 & B5 & B6 & B7 & B8)].
  assert (bt0 = bt) by congruence. subst bt0. assert (t0 = t) by congruence. subst t0. assert (bt0' = bt') by congruence. subst bt0'.
  destruct (B8 c Ic) as (v1 & V1 & Q1). apply in_split in Ic. destruct Ic as (a & b & Q). destruct (A7 a c b Q) as (rw2 & C1 & _ & _ & v2 & V2 & Q2).
  exists bt, t, bt', rw, rw2, v1, v2. do 8 (split; [assumption|]). assumption.
Qed.
Print Assumptions C87_no_constant_feature.

(** C88. Every rule IREP adds covers a positive training example that none of the rules it added before covers; so it never adds more rules than there are positive examples. *)
Theorem C88_irep_rules_work : forall e h cnopt df cf pc x p n p' n' init rs,
  setting e h df cf pc x p n p' n' -> irep_train e h cnopt df cf pc init = Ok rs ->
  exists new, rs_rules rs = rs_rules init ++ new /\ every_rule_works df cf pc new.
Proof. intros e h cnopt df cf pc x p n p' n' init rs ST H. destruct (irep_works ST _ _ _ H) as (new & Q & _ & K). eauto. Qed.
Print Assumptions C88_irep_rules_work.
Lemma fit_irep_works w cl X y cf pc names cnopt kw f vs ix cl' x : c_alg cl = IREP_ -> world_ok w -> training_input X y cf names f vs ix -> NoDup ix ->
  (0 <= h_prune (hyper_of cl kw))%Q -> (h_prune (hyper_of cl kw) <= 1)%Q -> nbins_fine (h_nbins (hyper_of cl kw)) ->
  fit w cl X y cf pc names MNone cnopt kw = (cl', Ok tt) -> c_rs cl' = Some x ->
  exists bt table binned_table p, c_bt cl' = Some bt /\ c_pc cl' = Some p /\ training_df X y f names = Ok table /\ transform bt table = Ok binned_table /\
    every_rule_works binned_table f p (rs_rules x).
Proof.
  intros AL WO T ND P0 P1 NB H RS.
  destruct (fit_trained _ _ _ _ _ _ _ _ _ _ _ _ _ _ WO T ND P0 P1 NB H) as (df & df0 & p & bt & xi & x1 & x2 & xx & pp & nn & p' & n' & FT & G & L & HC & TD & TR & ST).
  destruct FT as [FP FI FTR FF FR FC FPC FB FS FA FH FCl FFe]. rewrite FR in RS. injection RS as <-. cbn in FI. injection FI as <-.
  exists bt, df0, df, p. do 4 (split; [auto|]). rewrite AL in FTR. cbn [train] in FTR.
  destruct (irep_works ST _ _ _ FTR) as (new & Q & _ & K). cbn [rs_rules Ruleset_ app] in Q.
  apply (works_conds df f p (kept w (hyper_of cl kw) (rs_rules x1))); [eapply finish_conds; eauto|]. apply (works_sublist df f p (rs_rules x1)); [apply kept_sublist|]. rewrite Q. exact K.
Qed.
Theorem C88_fit_rules_work : forall w cl X y cf pc names cnopt kw f vs ix cl' x,
  c_alg cl = IREP_ -> world_ok w -> training_input X y cf names f vs ix -> NoDup ix ->
  let h := hyper_of cl kw in
  (0 <= h_prune h)%Q -> (h_prune h <= 1)%Q -> (h_nbins h = None \/ exists n, h_nbins h = Some n /\ (0 <= n)%Z) ->
  fit w cl X y cf pc names MNone cnopt kw = (cl', Ok tt) -> c_rs cl' = Some x ->
  exists bt table binned_table p, c_bt cl' = Some bt /\ c_pc cl' = Some p /\ training_df X y f names = Ok table /\ transform bt table = Ok binned_table /\
    every_rule_works binned_table f p (rs_rules x) /\
    forall pos, picks (positive_row (fcols binned_table) f p) (frows binned_table) pos -> length (rs_rules x) <= length pos.
Proof.
  intros w cl X y cf pc names cnopt kw f vs ix cl' x AL WO T ND h P0 P1 NB H RS.
  destruct (fit_irep_works _ _ _ _ _ _ _ _ _ _ _ _ _ _ AL WO T ND P0 P1 NB H RS) as (bt & t & bt' & p & A1 & A2 & A3 & A4 & A7).
  exists bt, t, bt', p. do 4 (split; [auto|]). split; [exact A7|]. intros pos PK. destruct (rules_count _ _ _ _ A7) as (rws & L & N & R). rewrite <- L. apply NoDup_incl_length; auto.
  intros rw Ir. apply (picks_In _ _ _ _ PK). apply R. exact Ir.
Qed.
Print Assumptions C88_fit_rules_work.

(** Non-vacuity *)
Example C87_nonvacuous : exists rs r a c, irep_train env0 (hyp0 0) true conj7 (s_ "class") (s_ "p") (Ruleset_ []) = Ok rs /\ In r (rs_rules rs) /\
  conds r = [a; c] /\ exists rw, turned_away conj7 (s_ "class") (s_ "p") [a] c rw.
Proof.
  destruct (conj7_setting 0) as (x & p & n & p' & n' & ST); [discriminate|discriminate|].
  eexists. eexists. eexists. eexists. split; [vm_compute; reflexivity|]. split; [left; reflexivity|]. split; [reflexivity|].
  edestruct (C87_irep_conditions_work env0 (hyp0 0) true) with (init := Ruleset_ []) as (new & E & K); [exact ST|vm_compute; reflexivity|].
  match type of E with ?l = _ => change (l = new) in E end. refine (K _ _ [_] _ [] _); [rewrite <- E; left; reflexivity|reflexivity].
Qed.
Example C87_ripper_nonvacuous : exists rs r c, ripper_train env0 (hyp0 (33#100)) false conj7 (s_ "class") (s_ "p") (Ruleset_ []) = Ok rs /\ In r (rs_rules rs) /\
  conds r = [c] /\ exists rw, turned_away conj7 (s_ "class") (s_ "p") [] c rw.
Proof.
  destruct (conj7_setting (33#100)) as (x & p & n & p' & n' & ST); [discriminate|discriminate|].
  eexists. eexists. eexists. split; [vm_compute; reflexivity|]. split; [left; reflexivity|]. split; [reflexivity|].
  refine (C87_ripper_conditions_work env0 (hyp0 (33#100)) false _ _ _ _ _ _ _ _ _ _ ST _ _ [] _ [] _); [vm_compute; reflexivity|left; reflexivity|reflexivity].
Qed.
Example C87_fit_nonvacuous : exists x r, c_rs full_clf = Some x /\ In r (rs_rules x) /\ conds r <> [] /\
  exists bt table binned_table p, c_bt full_clf = Some bt /\ c_pc full_clf = Some p /\
    training_df (DRows people) (Some people_y) (s_ "t") (Some [s_ "u"; s_ "v"]) = Ok table /\ transform bt table = Ok binned_table /\
    forall before c after, conds r = before ++ c :: after -> exists rw, turned_away binned_table (s_ "t") p before c rw.
Proof.
  eexists. eexists. split; [vm_compute; reflexivity|]. split; [left; reflexivity|]. split; [discriminate|].
  refine (C87_fit_conditions_work w1 irep_full (DRows people) (Some people_y) None None (Some [s_ "u"; s_ "v"]) true [] _ _ _ full_clf _ _ w1_ok people_input people_nodup _ _ _ _ _ _).
  1,2: discriminate.
  - right. eexists. split; [reflexivity|discriminate].
  - vm_compute. reflexivity.
  - vm_compute. reflexivity.
  - left. reflexivity.
Qed.
(** a disjunction: IREP learns two rules *)
Definition disj6 : frame := mkframe [s_ "a"; s_ "b"; s_ "class"]
  [mkrow 0 [s_ "x"; s_ "z"; s_ "p"]; mkrow 1 [s_ "x"; s_ "y"; s_ "p"]; mkrow 2 [s_ "y"; s_ "x"; s_ "p"]; mkrow 3 [s_ "z"; s_ "x"; s_ "p"];
   mkrow 4 [s_ "y"; s_ "y"; s_ "n"]; mkrow 5 [s_ "z"; s_ "z"; s_ "n"]].
Example C88_nonvacuous : exists rs r1 r2, irep_train env0 (hyp0 0) true disj6 (s_ "class") (s_ "p") (Ruleset_ []) = Ok rs /\ rs_rules rs = [r1; r2] /\
  exists rw, In rw (frows disj6) /\ positive_row (fcols disj6) (s_ "class") (s_ "p") rw /\ sat_rule (fcols disj6) rw r2 /\ ~ sat_rule (fcols disj6) rw r1.
Proof.
  destruct (setting_exists env0 (hyp0 0) disj6 (s_ "class") (s_ "p")) as (x & p & n & p' & n' & ST); auto using env0_ok; try discriminate.
  { apply good_frameb_ok. reflexivity. }
  { unfold distinct_labels, disj6. cbn. repeat constructor; cbn; intuition discriminate. }
  { apply has_col_iff. reflexivity. }
  eexists. eexists. eexists. split; [vm_compute; reflexivity|]. split; [reflexivity|].
  edestruct (C88_irep_rules_work env0 (hyp0 0) true) with (init := Ruleset_ []) as (new & E & K); [exact ST|vm_compute; reflexivity|].
  match type of E with ?l = _ => change (l = new) in E end. rewrite <- E in K. clear E. match type of K with every_rule_works _ _ _ (rs_rules {| rs_rules := [?a; ?b]; rs_possible := _; rs_uncov := _ |}) => destruct (K [a] b [] eq_refl) as (rw & A1 & A2 & A3 & A4) end.
  exists rw. split; [auto|]. split; [auto|]. split; [exact A3|]. apply A4. left. reflexivity.
Qed.
Example C88_fit_nonvacuous : exists x r, c_rs full_clf = Some x /\ rs_rules x = [r] /\
  exists bt table binned_table p, c_bt full_clf = Some bt /\ c_pc full_clf = Some p /\
    training_df (DRows people) (Some people_y) (s_ "t") (Some [s_ "u"; s_ "v"]) = Ok table /\ transform bt table = Ok binned_table /\
    every_rule_works binned_table (s_ "t") p (rs_rules x).
Proof.
  eexists. eexists. split; [vm_compute; reflexivity|]. split; [reflexivity|].
  edestruct (C88_fit_rules_work w1 irep_full (DRows people) (Some people_y) None None (Some [s_ "u"; s_ "v"]) true []) as (bt & t & bt' & p & A1 & A2 & A3 & A4 & A5 & _);
    [reflexivity|exact w1_ok|exact people_input|exact people_nodup|discriminate|discriminate| |vm_compute; reflexivity|vm_compute; reflexivity|].
  { right. eexists. split; [reflexivity|discriminate]. }
  exists bt, t, bt', p. do 4 (split; [assumption|]). exact A5.
Qed.
