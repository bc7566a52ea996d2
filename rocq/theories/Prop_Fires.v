(** * Prop_Fires.v : C72, C73 -- no dead rules, no contradictory or repeated conditions *)
From Verif Require Import Fires FitRun Prop_Fit Prop_FitModel Prop_Irep Prop_Ripper Demo Prop_Helpers.
From Verif Require Import ProbaSpec ProbaFacts ClfSpec ClfFacts.
Open Scope nat_scope.

Lemma pos_row {e h df cf pc x p n p' n'} (ST : setting e h df cf pc x p n p' n') rw : In rw (frows p) -> In rw (frows df) /\ positive_row (fcols df) cf pc rw.
Proof.
  destruct (st_pn ST) as [-> _]. intros I. apply filter_In in I. destruct I as [I C]. split; auto. destruct (s_good _ _ _ _ _ _ _ _ _ _ ST) as [_ D].
  unfold cell_eq in C. destruct (cell (fcols df) cf rw) as [v|] eqn:V; [|discriminate]. exists v. rewrite value_at_cell; auto.
Qed.
Lemma train_fires a e h cnopt df cf pc x p n p' n' rs : setting e h df cf pc x p n p' n' -> train a e h cnopt df cf pc (Ruleset_ []) = Ok rs ->
  forall r, In r (rs_rules rs) -> single (conds r) /\ exists rw, In rw (frows p) /\ sat_rule (fcols df) rw r.
Proof.
  intros ST H r I. destruct a; cbn [train] in H.
  - destruct (irep_single ST _ _ _ H) as (new & E & K). cbn [rs_rules Ruleset_ app] in E. apply K. rewrite <- E. exact I.
  - eapply (ripper_fires ST); eauto.
Qed.
Lemma fit_rules w cl X y cf pc names cnopt kw f vs ix cl' x r : world_ok w -> training_input X y cf names f vs ix -> NoDup ix ->
  (0 <= h_prune (hyper_of cl kw))%Q -> (h_prune (hyper_of cl kw) <= 1)%Q -> nbins_fine (h_nbins (hyper_of cl kw)) ->
  fit w cl X y cf pc names MNone cnopt kw = (cl', Ok tt) -> c_rs cl' = Some x -> In r (rs_rules x) ->
  single (conds r) /\ exists bt table binned_table p rw, c_bt cl' = Some bt /\ c_pc cl' = Some p /\ training_df X y f names = Ok table /\ transform bt table = Ok binned_table /\
    good_frame binned_table /\ In rw (frows binned_table) /\ positive_row (fcols binned_table) f p rw /\ sat_rule (fcols binned_table) rw r.
Proof.
  intros WO T ND P0 P1 NB H RS I.
  destruct (fit_trained _ _ _ _ _ _ _ _ _ _ _ _ _ _ WO T ND P0 P1 NB H) as (df & df0 & p & bt & xi & x1 & x2 & xx & pp & nn & p' & n' & FT & G & L & HC & TD & TR & ST).
  destruct FT as [FP FI FTR FF FR FC FPC FB FS FA FH FCl FFe]. rewrite FR in RS. injection RS as <-. cbn in FI. injection FI as <-.
  destruct (finish_In _ _ _ _ _ _ _ _ _ FF I) as (r1 & I1 & EC). destruct (train_fires _ _ _ _ _ _ _ _ _ _ _ _ _ ST FTR r1 I1) as [S (rw & J & C)]. rewrite EC. split; auto.
  destruct (pos_row ST rw J) as [J1 J2]. exists bt, df0, df, p, rw. do 7 (split; [auto|]). unfold sat_rule in *. rewrite EC. exact C.
Qed.

(** C72. Every rule that training makes fires on at least one positive training example: no rule is dead on arrival.
    IREP adds such rules after the rules of the initial model; RIPPER (with any number of optimisation rounds, started without a model)
    returns only such rules. *)
Theorem C72_irep_rules_fire : forall e h cnopt df cf pc x p n p' n' init rs,
  setting e h df cf pc x p n p' n' -> irep_train e h cnopt df cf pc init = Ok rs ->
  exists new, rs_rules rs = rs_rules init ++ new /\
    forall r, In r new -> exists rw, In rw (frows df) /\ positive_row (fcols df) cf pc rw /\ sat_rule (fcols df) rw r.
Proof.
  intros e h cnopt df cf pc x p n p' n' init rs ST H. destruct (irep_single ST _ _ _ H) as (new & E & K). exists new. split; auto.
  intros r I. destruct (K r I) as [_ (rw & I1 & S)]. exists rw. destruct (pos_row ST rw I1) as [A B]. auto.
Qed.
Print Assumptions C72_irep_rules_fire.
Theorem C72_ripper_rules_fire : forall e h cnopt df cf pc x p n p' n' rs r,
  setting e h df cf pc x p n p' n' -> ripper_train e h cnopt df cf pc (Ruleset_ []) = Ok rs -> In r (rs_rules rs) ->
  exists rw, In rw (frows df) /\ positive_row (fcols df) cf pc rw /\ sat_rule (fcols df) rw r.
Proof.
  intros e h cnopt df cf pc x p n p' n' rs r ST H I. destruct (ripper_fires ST _ _ _ H I) as [_ (rw & I1 & S)]. exists rw. destruct (pos_row ST rw I1) as [A B]. auto.
Qed.
Print Assumptions C72_ripper_rules_fire.
(** ... and so does every rule of a classifier fitted without an initial model, on the training table as the fitted discretiser sees it *)
Theorem C72_fit_rules_fire : forall w cl X y cf pc names cnopt kw f vs ix cl' x r,
  world_ok w -> training_input X y cf names f vs ix -> NoDup ix ->
  let h := hyper_of cl kw in
  (0 <= h_prune h)%Q -> (h_prune h <= 1)%Q -> (h_nbins h = None \/ exists n, h_nbins h = Some n /\ (0 <= n)%Z) ->
  fit w cl X y cf pc names MNone cnopt kw = (cl', Ok tt) -> c_rs cl' = Some x -> In r (rs_rules x) ->
  exists bt table binned_table p rw, c_bt cl' = Some bt /\ c_pc cl' = Some p /\ training_df X y f names = Ok table /\ transform bt table = Ok binned_table /\
    In rw (frows binned_table) /\ positive_row (fcols binned_table) f p rw /\ sat_rule (fcols binned_table) rw r.
Proof.
  intros w cl X y cf pc names cnopt kw f vs ix cl' x r WO T ND h P0 P1 NB H RS I.
  destruct (fit_rules _ _ _ _ _ _ _ _ _ _ _ _ _ _ _ WO T ND P0 P1 NB H RS I) as [_ (bt & t & bt' & p & rw & A1 & A2 & A3 & A4 & A5 & A6 & A7 & A8)].
  exists bt, t, bt', p, rw. do 6 (split; [auto|]). auto.
Qed.
Print Assumptions C72_fit_rules_fire.

(** C73. No rule of a classifier fitted without an initial model tests a feature twice -- so no rule carries contradictory or redundant tests --
    and none tests for a missing value. *)
Theorem C73_features_once : forall w cl X y cf pc names cnopt kw f vs ix cl' x r,
  world_ok w -> training_input X y cf names f vs ix -> NoDup ix ->
  let h := hyper_of cl kw in
  (0 <= h_prune h)%Q -> (h_prune h <= 1)%Q -> (h_nbins h = None \/ exists n, h_nbins h = Some n /\ (0 <= n)%Z) ->
  fit w cl X y cf pc names MNone cnopt kw = (cl', Ok tt) -> c_rs cl' = Some x -> In r (rs_rules x) ->
  (forall a c b d t, conds r = a ++ c :: b ++ d :: t -> py_eq (cfeat c) (cfeat d) = false) /\
  (forall c, In c (conds r) -> cval c <> PNaN).
Proof.
  intros w cl X y cf pc names cnopt kw f vs ix cl' x r WO T ND h P0 P1 NB H RS I.
  destruct (fit_rules _ _ _ _ _ _ _ _ _ _ _ _ _ _ _ WO T ND P0 P1 NB H RS I) as [S (bt & t & bt' & p & rw & A1 & A2 & A3 & A4 & A5 & A6 & A7 & A8)].
  split; [exact S|]. intros c Ic E. destruct (A8 c Ic) as (v & V & Q). rewrite E, py_eq_nan_r in Q. discriminate.
Qed.
Print Assumptions C73_features_once.
Theorem C73_irep_features_once : forall e h cnopt df cf pc x p n p' n' init rs,
  setting e h df cf pc x p n p' n' -> irep_train e h cnopt df cf pc init = Ok rs ->
  exists new, rs_rules rs = rs_rules init ++ new /\
    forall r a c b d t, In r new -> conds r = a ++ c :: b ++ d :: t -> py_eq (cfeat c) (cfeat d) = false.
Proof.
  intros e h cnopt df cf pc x p n p' n' init rs ST H. destruct (irep_single ST _ _ _ H) as (new & E & K). exists new. split; auto.
  intros r a c b d t I. destruct (K r I) as [S _]. apply S.
Qed.
Print Assumptions C73_irep_features_once.
Theorem C73_ripper_features_once : forall e h cnopt df cf pc x p n p' n' rs r a c b d t,
  setting e h df cf pc x p n p' n' -> ripper_train e h cnopt df cf pc (Ruleset_ []) = Ok rs -> In r (rs_rules rs) ->
  conds r = a ++ c :: b ++ d :: t -> py_eq (cfeat c) (cfeat d) = false.
Proof. intros e h cnopt df cf pc x p n p' n' rs r a c b d t ST H I. destruct (ripper_fires ST _ _ _ H I) as [S _]. apply S. Qed.
Print Assumptions C73_ripper_features_once.

(** Non-vacuity: seven rows where the positive class is a conjunction *)
Definition conj7 : frame := mkframe [s_ "a"; s_ "b"; s_ "class"]
  [mkrow 0 [s_ "x"; s_ "x"; s_ "p"]; mkrow 1 [s_ "x"; s_ "x"; s_ "p"]; mkrow 2 [s_ "x"; s_ "y"; s_ "n"]; mkrow 3 [s_ "y"; s_ "x"; s_ "n"];
   mkrow 4 [s_ "y"; s_ "y"; s_ "n"]; mkrow 5 [s_ "x"; s_ "x"; s_ "p"]; mkrow 6 [s_ "x"; s_ "x"; s_ "p"]].
Lemma conj7_setting prune : (0 <= prune)%Q -> (prune <= 1)%Q ->
  exists x p n p' n', setting env0 (hyp0 prune) conj7 (s_ "class") (s_ "p") x p n p' n'.
Proof.
  intros P0 P1. apply setting_exists; auto using env0_ok.
  - apply good_frameb_ok. reflexivity.
  - unfold distinct_labels, conj7. cbn. repeat constructor; cbn; intuition discriminate.
  - apply has_col_iff. reflexivity.
Qed.
Example C72_nonvacuous : exists rs r, irep_train env0 (hyp0 0) true conj7 (s_ "class") (s_ "p") (Ruleset_ []) = Ok rs /\ In r (rs_rules rs) /\
  rule_str r = $"[a=x^b=x]" /\ exists rw, In rw (frows conj7) /\ positive_row (fcols conj7) (s_ "class") (s_ "p") rw /\ sat_rule (fcols conj7) rw r.
Proof.
  destruct (conj7_setting 0) as (x & p & n & p' & n' & ST); [discriminate|discriminate|].
  eexists. eexists. split; [vm_compute; reflexivity|]. split; [left; reflexivity|]. split; [vm_compute; reflexivity|].
  edestruct (C72_irep_rules_fire env0 (hyp0 0) true) with (init := Ruleset_ []) as (new & E & K); [exact ST|vm_compute; reflexivity|]. apply K. match type of E with ?l = _ => change (l = new) in E end. rewrite <- E. left. reflexivity.
Qed.
Example C72_ripper_nonvacuous : exists rs r, ripper_train env0 (hyp0 (33#100)) true conj7 (s_ "class") (s_ "p") (Ruleset_ []) = Ok rs /\ In r (rs_rules rs) /\
  rule_str r = $"[a=x]" /\ exists rw, In rw (frows conj7) /\ positive_row (fcols conj7) (s_ "class") (s_ "p") rw /\ sat_rule (fcols conj7) rw r.
Proof.
  destruct (conj7_setting (33#100)) as (x & p & n & p' & n' & ST); [discriminate|discriminate|].
  eexists. eexists. split; [vm_compute; reflexivity|]. split; [left; reflexivity|]. split; [vm_compute; reflexivity|].
  eapply (C72_ripper_rules_fire env0 (hyp0 (33#100)) true); [exact ST|vm_compute; reflexivity|left; reflexivity].
Qed.
Example C73_nonvacuous : exists x r c, c_rs full_clf = Some x /\ In r (rs_rules x) /\ In c (conds r) /\ cval c <> PNaN.
Proof.
  eexists. eexists. eexists. split; [vm_compute; reflexivity|]. split; [left; reflexivity|]. split; [left; reflexivity|].
  refine (proj2 (C73_features_once w1 irep_full (DRows people) (Some people_y) None None (Some [s_ "u"; s_ "v"]) true [] _ _ _ full_clf _ _ w1_ok people_input people_nodup _ _ _ _ _ _) _ _).
  1,2: discriminate.
  - right. eexists. split; [reflexivity|discriminate].
  - vm_compute. reflexivity.
  - vm_compute. reflexivity.
  - left. reflexivity.
  - left. reflexivity.
Qed.
