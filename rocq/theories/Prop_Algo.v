(** * Prop_Algo.v : IREP training is the published IREP algorithm (C91). The algorithm is the relation [irep_run] of AlgoSpec. *)
From Verif Require Import Algo Prop_Helpers Prop_Irep Prop_Fit Prop_FitModel Prop_Fires FitRun ClfSpec Demo.
From Coq Require Import Lqa.
Open Scope nat_scope.

Lemma st_examples {e h df cf pc x p n p' n'} (ST : setting e h df cf pc x p n p' n') : examples_of_class df cf pc (labels (frows p)) (labels (frows n)).
Proof.
  assert (C : column_present df cf). { apply has_col_iff. eapply drop_col_present. apply (s_x _ _ _ _ _ _ _ _ _ _ ST). }
  destruct (C17_pos_neg_partition df cf pc (s_good _ _ _ _ _ _ _ _ _ _ ST) C) as (q & m & S & _ & _ & A & B & _).
  rewrite (s_split _ _ _ _ _ _ _ _ _ _ ST) in S. injection S as <- <-. exists (frows p), (frows n). auto.
Qed.

(** The rules that training adds to the initial ones are those of a run of the algorithm on the training table *)
Theorem C91_irep_training : forall e h cnopt df cf pc x p n p' n' init rs,
  setting e h df cf pc x p n p' n' -> irep_train e h cnopt df cf pc init = Ok rs ->
  exists pos neg cov cand new, examples_of_class df cf pc pos neg /\ coverage_of x cov /\ candidates cnopt x pos neg (old_possible init) cand /\
    irep_run e h x cov cand (rs_rules init) pos neg [] new /\ rs_rules rs = rs_rules init ++ new.
Proof.
  intros e h cnopt df cf pc x p n p' n' init rs ST H. destruct (irep_train_algo ST _ _ _ H) as (new & cand & E & C & R).
  exists (labels (frows p)), (labels (frows n)), (gcov (xsat x)), cand, new. split; [apply (st_examples ST)|]. split; [apply (cov_ok ST)|]. auto.
Qed.
Print Assumptions C91_irep_training.

Lemma trim_trimmed m l : trimmed_to m l (trim_conds m l).
Proof.
  split; [apply trim_conds_prefix|]. split; [intros ->; reflexivity|]. intros k ->. change (fun r => Z.of_nat (total_conds r)) with (fun r => Z.of_nat (count_conds r)). destruct (Z.leb_spec 0 k) as [K|K].
  - destruct (trim_conds_spec k l K) as (_ & A & B). split; [right; exact A|exact B].
  - split.
    + left. unfold trim_conds. replace (trim_rev k (rev l)) with (@nil rule); auto. induction (rev l) as [|r t IH]; cbn [trim_rev]; auto.
      assert (E : (k <? Z.of_nat (count_conds (r :: t)))%Z = true) by (apply Z.ltb_lt; lia). rewrite E. exact IH.
    + intros k' _ L. lia.
Qed.
(** The whole of IREP.fit, from any initial model: the rules of the fitted classifier are, up to their statistics, those of the initial
    model followed by those of a run of the algorithm on the training table as the fitted discretiser sees it (without its class column),
    without repetitions and trimmed to max_total_conds *)
Theorem C91_fit_is_irep : forall w cl X y cf pc names init cnopt kw f vs ix cl' rs x0,
  c_alg cl = IREP_ -> world_ok w -> training_input X y cf names f vs ix -> NoDup ix ->
  let h := hyper_of cl kw in
  (0 <= h_prune h)%Q -> (h_prune h <= 1)%Q -> (h_nbins h = None \/ exists n, h_nbins h = Some n /\ (0 <= n)%Z) ->
  model_means init x0 -> fit w cl X y cf pc names init cnopt kw = (cl', Ok tt) -> c_rs cl' = Some rs ->
  exists bt table binned_table p x pos neg cov cand new once kept,
    c_bt cl' = Some bt /\ c_pc cl' = Some p /\ training_df X y f names = Ok table /\ transform bt table = Ok binned_table /\
    drop_col binned_table f = Ok x /\ examples_of_class binned_table f p pos neg /\ coverage_of x cov /\
    candidates cnopt x pos neg (match rs_possible x0 with Some l => l | None => [] end) cand /\
    irep_run (w_env w) h x cov cand (rs_rules x0) pos neg [] new /\
    first_occurrences (fun a b => rule_hash (e_hash (w_env w)) a = rule_hash (e_hash (w_env w)) b /\ rule_eqb a b = true) [] (rs_rules x0 ++ new) once /\
    trimmed_to (h_max_total_conds h) once kept /\ map conds (rs_rules rs) = map conds kept.
Proof.
  intros w cl X y cf pc names init cnopt kw f vs ix cl' rs x0 AL WO T ND h P0 P1 NB MM H RS.
  destruct (fit_trained _ _ _ _ _ _ _ _ _ _ _ _ _ _ WO T ND P0 P1 NB H) as (df & df0 & p & bt & xi & x1 & x2 & xx & pp & nn & p' & n' & FT & G & L & HC & TD & TR & ST).
  destruct FT as [FP FI FTR FF FR FC FPC FB FS FA FH FCl FFe]. rewrite FR in RS. injection RS as <-. apply means_from in MM. rewrite FI in MM. injection MM as ->.
  rewrite AL in FTR. cbn [train] in FTR.
  destruct (C91_irep_training _ _ _ _ _ _ _ _ _ _ _ _ _ ST FTR) as (pos & neg & cov & cand & new & EX & CO & CA & RU & Q).
  exists bt, df0, df, p, xx, pos, neg, cov, cand, new, (remove_duplicates (e_hash (w_env w)) (rs_rules x1)), (FitRun.kept w h (rs_rules x1)).
  do 4 (split; [auto|]). split; [apply (s_x _ _ _ _ _ _ _ _ _ _ ST)|]. do 4 (split; [auto|]).
  split; [rewrite <- Q; apply remove_duplicates_first|]. split; [apply trim_trimmed|].
  apply finish_conds in FF. clear -FF. unfold h. induction FF as [|a b l l' E F IH]; [reflexivity|]. cbn [map]. rewrite IH, E. reflexivity.
Qed.
Print Assumptions C91_fit_is_irep.

(** What the relation says. Without pruning and without limits on the rule set the run ends only when all positives are covered ... *)
Theorem C91_run_covers : forall e h x cov cand init pos neg a fin,
  (h_prune h == 0)%Q -> h_max_rules h = None -> h_max_total_conds h = None -> h_min_ruleset_samples h = None ->
  irep_run e h x cov cand init pos neg a fin -> picks (uncovered_label x fin) pos [].
Proof.
  intros e h x cov cand init pos neg a fin Z M1 M2 M3. induction 1; auto; try contradiction.
  exfalso. destruct H1 as [(m & C & _)|[(m & C & _)|(m & C & _)]]; congruence.
Qed.
Print Assumptions C91_run_covers.
(** ... and with pruning a run that adds no rule was stopped for one of the three reasons *)
Theorem C91_run_idle : forall e h x cov cand init pos neg a,
  irep_run e h x cov cand init pos neg a a -> ~ (h_prune h == 0)%Q ->
  picks (uncovered_label x a) pos [] \/
  (exists rp rn, remaining h x pos neg a rp rn /\ ruleset_limit h (init ++ a) (length rp + length rn)) \/
  (exists pp np g b, incl pp pos /\ pruned_to cov pp np g b /\ ~ precise cov pp np b).
Proof.
  intros e h x cov cand init pos neg a R NZ.
  assert (GROW : forall u v, irep_run e h x cov cand init pos neg u v -> length u <= length v). { induction 1; auto; rewrite app_length in *; cbn in *; lia. }
  inversion R as [a0 H|a0 rp rn RM NE LM|a0 rp rn pg pp ng np g b RM NE LM Z S1 S2 GR PR PC|a0 rp rn pg pp ng np g r fin RM NE LM Z S1 S2 GR PR PC RU|
    a0 rp rn pg ng r fin RM NE LM Z PP PN GR RU]; subst; auto.
  - right; left. eauto.
  - right; right. exists pp, np, g, b. split; auto. destruct S1 as [S1 _]. destruct RM as [RM _]. intros i I.
    assert (J : In i rp) by (eapply Permutation_in; [exact S1|apply in_or_app; auto]). apply (picks_In _ _ _ _ RM) in J. tauto.
  - apply GROW in RU. rewrite app_length in RU. cbn in RU. lia.
  - contradiction.
Qed.
Print Assumptions C91_run_idle.

(** Non-vacuity *)
Example C91_nonvacuous : exists rs x cov cand pos neg, irep_train env0 (hyp0 0) true conj7 (s_ "class") (s_ "p") (Ruleset_ []) = Ok rs /\
  map rule_str (rs_rules rs) = [$"[a=x^b=x]"] /\ irep_run env0 (hyp0 0) x cov cand [] pos neg [] (rs_rules rs) /\
  ~ irep_run env0 (hyp0 0) x cov cand [] pos neg [] [] /\ length pos = 4.
Proof.
  destruct (conj7_setting 0) as (x & p & n & p' & n' & ST); [discriminate|discriminate|].
  destruct (irep_train env0 (hyp0 0) true conj7 (s_ "class") (s_ "p") (Ruleset_ [])) as [rs|er] eqn:T; [|vm_compute in T; discriminate].
  destruct (C91_irep_training _ _ _ _ _ _ _ _ _ _ _ _ _ ST T) as (pos & neg & cov & cand & new & EX & CO & CA & RU & Q).
  cbn [rs_rules Ruleset_ app] in Q, RU. exists rs, x, cov, cand, pos, neg. split; auto. split; [vm_compute in T; injection T as <-; reflexivity|].
  split; [rewrite Q; exact RU|]. destruct EX as (q & m & A & _ & -> & _).
  assert (QE : q = pos_rows conj7 (s_ "class") (s_ "p")).
  { destruct (st_examples ST) as (q' & m' & A' & _). pose proof (picks_unique _ _ _ _ A A') as ->. 
    assert (C : column_present conj7 (s_ "class")) by (apply has_col_iff; reflexivity).
    destruct (C17_pos_neg_partition conj7 (s_ "class") (s_ "p") (s_good _ _ _ _ _ _ _ _ _ _ ST) C) as (q2 & m2 & S & _ & _ & A2 & _).
    pose proof (picks_unique _ _ _ _ A' A2) as ->. vm_compute in S. injection S as <- _. reflexivity. }
  subst q. split; [|reflexivity]. intros K. apply C91_run_covers in K; try reflexivity.
  assert (I : In 0 (map rlab (pos_rows conj7 (s_ "class") (s_ "p")))) by (vm_compute; auto).
  destruct (picks_In _ _ _ 0 K) as [_ P]. apply P. split; auto. intros r [].
Qed.
