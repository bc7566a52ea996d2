(** * Prop_Irep.v : what IREP training guarantees (C21, C25-C31). [setting e h df cf pc x p n p' n'] (IrepTrain.v) says: the environment
    is admissible, 0 <= prune_size <= 1, df is a table with distinct labels, x is df without the class column cf, p and n are its
    positive and negative rows (C17), p' and n' the same without the class column. [cnopt] is cn_optimize. *)
From Verif Require Import IrepTrain Demo Prop_Helpers.
From Coq Require Import Lqa.
Open Scope nat_scope.

(** C25, training part: every loop ends and no exception is raised (the rest of fit is in Prop_Classifier) *)
Theorem C25_irep_training_total : forall e h cnopt df cf pc init,
  env_ok e -> (0 <= h_prune h)%Q -> (h_prune h <= 1)%Q -> good_frame df -> distinct_labels df -> column_present df cf ->
  exists rs, irep_train e h cnopt df cf pc init = Ok rs.
Proof.
  intros e h cnopt df cf pc init Eo P0 P1 G L C.
  destruct (setting_exists e h df cf pc Eo P0 P1 G L C) as (x & p & n & p' & n' & ST). exact (irep_train_total ST cnopt init).
Qed.
Print Assumptions C25_irep_training_total.

(** C26 *)
Theorem C26_irep_conditions_from_data : forall e h cnopt df cf pc x p n p' n' rs r c,
  setting e h df cf pc x p n p' n' -> irep_train e h cnopt df cf pc (Ruleset_ []) = Ok rs ->
  In r (rs_rules rs) -> In c (conds r) -> from_data df cf c.
Proof.
  intros e h cnopt df cf pc x p n p' n' rs r c ST H Ir Ic.
  destruct (irep_train_run ST _ _ _ H) as (new & E1 & E2 & _). cbn [rs_rules Ruleset_ app] in *. rewrite E1 in Ir.
  apply in_split in Ir. destruct Ir as (u & v & Es). specialize (E2 u r v Es).
  destruct (gstep_conds _ _ _ _ _ _ _ _ _ _ E2 Ic) as [_ I].
  destruct (cand_data ST cnopt c I) as (F & rw & Irw & Cv).
  destruct (st_xgood ST) as ([_ Dc] & _ & _ & NC & IC).
  split; [apply IC; auto|]. split.
  - destruct (py_eq (cfeat c) cf) eqn:Q; auto. exfalso. apply NC. exists (cfeat c). auto.
  - destruct (drop_col_value _ _ _ _ (s_x _ _ _ _ _ _ _ _ _ _ ST) Irw) as (rw0 & I0 & _ & V). exists rw0. split; auto. apply V.
    apply cell_value_at; auto.
Qed.
Print Assumptions C26_irep_conditions_from_data.
(** every rule IREP learns (also when started from an initial model) covers a positive training example *)
Theorem C26_irep_rule_covers_positive : forall e h cnopt df cf pc x p n p' n' init rs,
  setting e h df cf pc x p n p' n' -> irep_train e h cnopt df cf pc init = Ok rs ->
  exists new, rs_rules rs = rs_rules init ++ new /\
    forall r, In r new -> exists rw, In rw (frows p) /\ sat_rule (fcols df) rw r.
Proof.
  intros e h cnopt df cf pc x p n p' n' init rs ST H.
  destruct (irep_train_run ST _ _ _ H) as (new & E1 & E2 & _). exists new. split; auto. intros r Ir.
  apply in_split in Ir. destruct Ir as (u & v & Es). specialize (E2 u r v Es).
  destruct (st_in ST) as [Ip _]. destruct (st_xgood ST) as ([_ Dc] & _ & ND & _).
  destruct (gstep_pos _ _ _ _ _ (st_spok ST) _ _ _ _ _ Ip E2) as (i & I1 & I2).
  apply gsat_covers in I2; auto. apply (covers_label_df df cf x) in I2; [|apply (s_x _ _ _ _ _ _ _ _ _ _ ST)].
  destruct I2 as (rw & I3 & I4 & I5). exists rw. split; auto.
  apply in_map_iff in I1. destruct I1 as (rw' & L & I1).
  assert (In rw' (frows df)). { destruct (st_pn ST) as [Ep _]. rewrite Ep in I1. apply filter_In in I1. tauto. }
  assert (rw' = rw) as <-; auto. apply (NoDup_map_inj rlab (frows df)); auto; [apply (s_labels _ _ _ _ _ _ _ _ _ _ ST)|congruence].
Qed.
Print Assumptions C26_irep_rule_covers_positive.

Lemma rem_picks x a l : distinct_cols (fcols x) -> NoDup (labels (frows x)) -> in_frame x l ->
  picks (uncovered_label x a) l (grem (xsat x) a l).
Proof.
  intros Dc ND I. apply picks_filter. intros i Ii. rewrite Bool.negb_true_iff, <- Bool.not_true_iff_false, existsb_exists.
  split.
  - intros H r Ir C. apply H. exists r. split; auto. apply gsat_covers; auto.
  - intros H (r & Ir & C). apply (H r Ir). apply gsat_covers in C; auto.
Qed.
Lemma cov_picks x r l : distinct_cols (fcols x) -> NoDup (labels (frows x)) -> in_frame x l ->
  picks (covers_label x r) l (gcov (xsat x) r l).
Proof. intros Dc ND I. apply picks_filter. intros i Ii. apply gsat_covers; auto. Qed.

(** C27. [rp], [rn]: positives / negatives not covered by the rules learned before r; they are split into a grow part and a prune part
    (pp, np); among the prune part r covers tp > 0 positives and fp <= tp negatives, i.e. its precision there is at least one half. *)
Theorem C27_irep_precision : forall e h cnopt df cf pc x p n p' n' init rs,
  setting e h df cf pc x p n p' n' -> ~ (h_prune h == 0)%Q -> irep_train e h cnopt df cf pc init = Ok rs ->
  exists new, rs_rules rs = rs_rules init ++ new /\
  forall a r b, new = a ++ r :: b ->
    exists rp rn pg pp ng np tp fp,
      picks (uncovered_label x a) (labels (frows p)) rp /\ picks (uncovered_label x a) (labels (frows n)) rn /\
      Permutation (pg ++ pp) rp /\ Permutation (ng ++ np) rn /\
      Z.of_nat (length pg) = e_split e (1 - h_prune h) (length rp) /\ Z.of_nat (length ng) = e_split e (1 - h_prune h) (length rn) /\
      picks (covers_label x r) pp tp /\ picks (covers_label x r) np fp /\
      0 < length tp /\ length fp <= length tp.
Proof.
  intros e h cnopt df cf pc x p n p' n' init rs ST PZ H.
  assert (On : prune_off h = false). { unfold prune_off. destruct (Qeq_bool (h_prune h) 0) eqn:Q; auto. apply Qeq_bool_eq in Q. contradiction. }
  destruct (irep_train_run ST _ _ _ H) as (new & E1 & E2 & _). exists new. split; auto. intros a r b Eq.
  specialize (E2 a r b Eq). destruct (st_in ST) as [Ip In_]. destruct (st_xgood ST) as ([_ Dc] & _ & ND & _).
  destruct E2 as (t & pg & pp & ng & np & g & S1 & S2 & NE & _ & G & R). unfold gneg in S2. rewrite On in *. destruct R as [_ B].
  assert (F : forall l, in_frame x l -> in_frame x (grem (xsat x) a l)). { intros l I i Ii. apply filter_In in Ii. apply I; tauto. }
  assert (G0 : (0 <= grow_size h)%Q). { unfold grow_size. pose proof (s_prune1 _ _ _ _ _ _ _ _ _ _ ST). lra. }
  assert (G1 : (grow_size h <= 1)%Q). { unfold grow_size. pose proof (s_prune0 _ _ _ _ _ _ _ _ _ _ ST). lra. }
  destruct (random_split_spec _ _ _ _ _ _ (s_env _ _ _ _ _ _ _ _ _ _ ST) G0 G1 S1) as [Q1 L1].
  destruct (random_split_spec _ _ _ _ _ _ (s_env _ _ _ _ _ _ _ _ _ _ ST) G0 G1 S2) as [Q2 L2].
  destruct (perm_incl _ _ _ _ Q1 (F _ Ip)) as [_ J1]. destruct (perm_incl _ _ _ _ Q2 (F _ In_)) as [_ J2].
  exists (grem (xsat x) a (labels (frows p))), (grem (xsat x) a (labels (frows n))), pg, pp, ng, np, (gcov (xsat x) r pp), (gcov (xsat x) r np).
  split; [apply rem_picks; auto|]. split; [apply rem_picks; auto|]. split; auto. split; auto. split; auto. split; auto.
  split; [apply cov_picks; auto|]. split; [apply cov_picks; auto|]. apply good_prec. exact B.
Qed.
Print Assumptions C27_irep_precision.

(** C28 *)
Definition no_ruleset_limits (h : hyper) : Prop := h_max_rules h = None /\ h_min_ruleset_samples h = None /\ h_max_total_conds h = None.
Definition no_rule_limits (h : hyper) : Prop := h_max_rule_conds h = None /\ h_min_rule_samples h = None.
Theorem C28_irep_covers_positives : forall e h cnopt df cf pc x p n p' n' init rs,
  setting e h df cf pc x p n p' n' -> (h_prune h == 0)%Q -> no_ruleset_limits h -> irep_train e h cnopt df cf pc init = Ok rs ->
  forall rw, In rw (frows p) -> sat_ruleset (fcols df) rw (rs_rules rs).
Proof.
  intros e h cnopt df cf pc x p n p' n' init rs ST PZ (L1 & L2 & L3) H rw Irw.
  assert (Off : prune_off h = true) by (unfold prune_off; apply Qeq_bool_iff; auto).
  destruct (irep_train_run ST _ _ _ H) as (new & E1 & _ & [E3|[[_ E3]|[E3 _]]]).
  - destruct (st_in ST) as [Ip In_]. destruct (st_xgood ST) as ([_ Dc] & _ & ND & _).
    assert (I : In (rlab rw) (labels (frows p))) by (apply in_map; auto).
    assert (C : existsb (fun r => gsat (xsat x) r (rlab rw)) new = true).
    { destruct (existsb (fun r => gsat (xsat x) r (rlab rw)) new) eqn:Q; auto. exfalso.
      assert (Z : In (rlab rw) (grem (xsat x) new (labels (frows p)))) by (apply filter_In; rewrite Q; auto). rewrite E3 in Z. destruct Z. }
    apply existsb_exists in C. destruct C as (r & Ir & C). apply gsat_covers in C; auto.
    apply (covers_label_df df cf x) in C; [|apply (s_x _ _ _ _ _ _ _ _ _ _ ST)]. destruct C as (rw' & I3 & I4 & I5).
    assert (I6 : In rw (frows df)). { destruct (st_pn ST) as [Ep _]. rewrite Ep in Irw. apply filter_In in Irw. tauto. }
    assert (rw' = rw) as -> by (apply (NoDup_map_inj rlab (frows df)); auto; apply (s_labels _ _ _ _ _ _ _ _ _ _ ST)).
    exists r. split; auto. rewrite E1. apply in_or_app; auto.
  - unfold stop_early in E3. rewrite L1, L2, L3 in E3. discriminate.
  - congruence.
Qed.
Print Assumptions C28_irep_covers_positives.
(** with cn_optimize, no missing values and no positive row looking exactly like a negative one, no negative is covered either *)
Theorem C28_irep_no_false_positives : forall e h df cf pc x p n p' n' rs,
  setting e h df cf pc x p n p' n' -> (h_prune h == 0)%Q -> no_rule_limits h -> no_missing x ->
  (forall a b, In a (frows x) -> In b (frows x) -> In (rlab a) (labels (frows p)) -> In (rlab b) (labels (frows n)) -> ~ same_features x a b) ->
  irep_train e h true df cf pc (Ruleset_ []) = Ok rs ->
  forall i r, In i (labels (frows n)) -> In r (rs_rules rs) -> ~ covers_label x r i.
Proof.
  intros e h df cf pc x p n p' n' rs ST PZ (L1 & L2) NM CO H i r Ii Ir C.
  assert (Off : prune_off h = true) by (unfold prune_off; apply Qeq_bool_iff; auto).
  destruct (irep_train_run ST _ _ _ H) as (new & E1 & E2 & _). cbn [rs_rules Ruleset_ app] in E1, E2. rewrite E1 in Ir.
  destruct (st_in ST) as [Ip In_]. destruct (st_xgood ST) as (Gx & _ & ND & _). pose proof Gx as [_ Dc].
  apply in_split in Ir. destruct Ir as (u & v & Es). specialize (E2 u r v Es).
  destruct E2 as (t & pg & pp & ng & np & g & S1 & S2 & NE & _ & G & R). unfold gneg in S2. rewrite Off in *. subst g.
  pose proof (st_spok ST) as OK.
  assert (IR : in_frame x (grem (xsat x) u (labels (frows p)))) by (intros k K; apply filter_In in K; apply Ip; tauto).
  pose proof (sp_perm _ _ _ OK _ _ _ _ IR S1) as Q1. pose proof (sp_perm _ _ _ OK _ _ _ _ In_ S2) as Q2.
  rewrite (sp_off _ _ _ OK _ _ _ _ IR Off S1), app_nil_r in Q1. rewrite (sp_off _ _ _ OK _ _ _ _ In_ Off S2), app_nil_r in Q2.
  rewrite L1, L2 in G. apply ggrow_spec in G. destruct G as (r1 & CH & X).
  assert (r = r1). { destruct X; auto. } subst r1.
  assert (GP : gcov (xsat x) r pg <> []).
  { eapply gchain_pos; eauto. rewrite gcov_empty. intros Z. subst pg. apply Permutation_nil in Q1. auto. }
  assert (Cn : In i (gcov (xsat x) r ng)).
  { apply filter_In. split; [eapply Permutation_in; [symmetry; exact Q2|auto]|]. apply gsat_covers; auto. }
  destruct X as [Z|_ Z|NZ _ Z].
  - rewrite Z in Cn. destruct Cn.
  - discriminate.
  - destruct (gcov (xsat x) r pg) as [|k l] eqn:GC; [congruence|]. assert (Kp : In k (gcov (xsat x) r pg)) by (rewrite GC; left; auto).
    assert (Kf : In k (labels (frows p))). { apply gcov_incl in Kp. apply (Permutation_in _ Q1) in Kp. apply filter_In in Kp. tauto. }
    pose proof (Ip k Kf) as Kx. pose proof (In_ i Ii) as Ix. apply in_map_iff in Kx. destruct Kx as (ra & <- & Ra).
    apply in_map_iff in Ix. destruct Ix as (rb & <- & Rb).
    apply (CO ra rb Ra Rb Kf Ii).
    apply (stuck_same x r pg ng Gx ND NM); auto.
    + intros j J. apply Ip. apply (Permutation_in _ Q1) in J. apply filter_In in J. tauto.
    + intros j J. apply In_. apply (Permutation_in _ Q2) in J. exact J.
    + intros c Ic. apply gsucc_None with (d := c) in Z; auto.
Qed.
Print Assumptions C28_irep_no_false_positives.

(** C29, training part: the initial rules stay in front *)
Theorem C29_irep_keeps_initial_rules : forall e h cnopt df cf pc x p n p' n' init rs,
  setting e h df cf pc x p n p' n' -> irep_train e h cnopt df cf pc init = Ok rs -> prefix (rs_rules init) (rs_rules rs).
Proof.
  intros e h cnopt df cf pc x p n p' n' init rs ST H. destruct (irep_train_run ST _ _ _ H) as (new & E1 & _). exists new. exact E1.
Qed.
Print Assumptions C29_irep_keeps_initial_rules.

(** C30, training part (later steps of fit only remove rules) *)
Theorem C30_irep_max_rules : forall e h cnopt df cf pc x p n p' n' init rs m,
  setting e h df cf pc x p n p' n' -> h_max_rules h = Some m -> irep_train e h cnopt df cf pc init = Ok rs ->
  (Z.of_nat (length (rs_rules rs)) <= Z.max m (Z.of_nat (length (rs_rules init))))%Z.
Proof.
  intros e h cnopt df cf pc x p n p' n' init rs m ST M H. destruct (irep_train_run ST _ _ _ H) as (new & E1 & E2 & _).
  rewrite E1. destruct new as [|r u] using rev_ind; [rewrite app_nil_r; lia|]. clear IHu.
  specialize (E2 u r [] eq_refl). destruct E2 as (t & pg & pp & ng & np & g & _ & _ & _ & SE & _).
  unfold stop_early in SE. rewrite M in SE. apply Bool.orb_false_elim in SE. destruct SE as [SE _]. apply Bool.orb_false_elim in SE.
  destruct SE as [SE _]. cbn in SE. apply Z.leb_gt in SE. rewrite !app_length in *. cbn [length]. lia.
Qed.
Print Assumptions C30_irep_max_rules.

(** C31, training part *)
Theorem C31_irep_max_rule_conds : forall e h cnopt df cf pc x p n p' n' init rs m,
  setting e h df cf pc x p n p' n' -> h_max_rule_conds h = Some m -> (0 <= m)%Z -> irep_train e h cnopt df cf pc init = Ok rs ->
  exists new, rs_rules rs = rs_rules init ++ new /\ forall r, In r new -> (Z.of_nat (length (conds r)) <= m)%Z.
Proof.
  intros e h cnopt df cf pc x p n p' n' init rs m ST M Z H. destruct (irep_train_run ST _ _ _ H) as (new & E1 & E2 & _).
  exists new. split; auto. intros r Ir. apply in_split in Ir. destruct Ir as (u & v & Es). specialize (E2 u r v Es).
  eapply gstep_len; eauto.
Qed.
Print Assumptions C31_irep_max_rule_conds.

(** ** A concrete training set *)
Definition tennis : frame :=
  mkframe [s_ "outlook"; s_ "wind"; s_ "play"]
    [ mkrow 0 [s_ "sunny"; s_ "weak"; s_ "p"]; mkrow 1 [s_ "sunny"; s_ "strong"; s_ "e"];
      mkrow 2 [s_ "rain"; s_ "weak"; s_ "p"]; mkrow 3 [s_ "rain"; s_ "strong"; s_ "e"]; mkrow 4 [s_ "clear"; s_ "strong"; s_ "p"] ].
Definition hyp0 (prune : Q) : hyper := mkhyper prune (Some 10%Z) None None None None None 1 (Some 42%Z) 0 2 64.
Lemma tennis_good : good_frame tennis. Proof. apply good_frameb_ok. reflexivity. Qed.
Lemma tennis_labels : distinct_labels tennis.
Proof. unfold distinct_labels. cbn. repeat constructor; cbn; intuition congruence. Qed.
Lemma tennis_setting prune : (0 <= prune)%Q -> (prune <= 1)%Q ->
  exists x p n p' n', setting env0 (hyp0 prune) tennis (s_ "play") (s_ "p") x p n p' n'.
Proof.
  intros H0 H1. apply setting_exists; auto using env0_ok, tennis_good, tennis_labels. apply has_col_iff. reflexivity.
Qed.
Example C25_nonvacuous : exists rs, irep_train env0 (hyp0 (33#100)) true tennis (s_ "play") (s_ "p") (Ruleset_ []) = Ok rs.
Proof. eexists. vm_compute. reflexivity. Qed.
Example C28_nonvacuous : exists rs, irep_train env0 (hyp0 0) true tennis (s_ "play") (s_ "p") (Ruleset_ []) = Ok rs /\
  map conds (rs_rules rs) = [[c_ "wind" "weak"]; [c_ "outlook" "clear"]].
Proof. eexists. split; vm_compute; reflexivity. Qed.

(** C21. The two engines use different candidate conditions: cn_optimize=False only considers values that occur both among the positives
    and among the negatives. When these candidate lists coincide, the engines agree. *)
Theorem C21_irep_engines_agree_partial : forall e h df cf pc x p n p' n',
  setting e h df cf pc x p n p' n' ->
  (forall f, In f (fcols x) -> set_order e (shared_values f p' n') = unique (column x f)) ->
  irep_train e h true df cf pc (Ruleset_ []) = irep_train e h false df cf pc (Ruleset_ []).
Proof.
  intros e h df cf pc x p n p' n' ST HC. rewrite !(irep_train_lab ST).
  assert (EQ : cand_conds e true x (old_possible (Ruleset_ [])) p' n' = cand_conds e false x (old_possible (Ruleset_ [])) p' n').
  { unfold cand_conds, update_possible_conds, cn_possible_conds, old_possible. cbn [rs_possible Ruleset_ app].
    destruct (st_rows ST) as [(R1 & _) _]. rewrite R1. clear -HC. induction (fcols x) as [|f l IH]; [reflexivity|]. cbn [flat_map].
    rewrite (HC f) by (left; auto). rewrite IH; auto. intros g Hg. apply HC. right; auto. }
  rewrite EQ. reflexivity.
Qed.
Print Assumptions C21_irep_engines_agree_partial.
Definition sep : frame := mkframe [s_ "a"; s_ "class"] [mkrow 0 [s_ "1"; s_ "p"]; mkrow 1 [s_ "0"; s_ "n"]].
(** two rows, one separating value: the default engine learns a=1, the other learns the empty rule (predicts everything positive) *)
Theorem C21_irep_engines_differ_refuted : exists df cf pc rs rs', good_frame df /\ distinct_labels df /\
  irep_train env0 (hyp0 0) true df cf pc (Ruleset_ []) = Ok rs /\
  irep_train env0 (hyp0 0) false df cf pc (Ruleset_ []) = Ok rs' /\
  rs_predict (rs_rules rs) df = Ok [true; false] /\ rs_predict (rs_rules rs') df = Ok [true; true].
Proof.
  exists sep, (s_ "class"), (s_ "p"). eexists _, _. split; [apply good_frameb_ok; reflexivity|].
  split; [unfold distinct_labels; cbn; repeat constructor; cbn; intuition congruence|].
  split; [vm_compute; reflexivity|]. split; [vm_compute; reflexivity|]. split; vm_compute; reflexivity.
Qed.
Print Assumptions C21_irep_engines_differ_refuted.
(** a setting where the hypothesis of the agreement theorem holds *)
Definition xor4 : frame := mkframe [s_ "a"; s_ "b"; s_ "class"]
  [mkrow 0 [s_ "0"; s_ "0"; s_ "p"]; mkrow 1 [s_ "1"; s_ "1"; s_ "p"]; mkrow 2 [s_ "0"; s_ "1"; s_ "n"]; mkrow 3 [s_ "1"; s_ "0"; s_ "n"]].
Example C21_nonvacuous : exists x p n p' n', setting env0 (hyp0 0) xor4 (s_ "class") (s_ "p") x p n p' n' /\
  (forall f, In f (fcols x) -> set_order env0 (shared_values f p' n') = unique (column x f)).
Proof.
  eexists _, _, _, _, _. split.
  - constructor; [exact env0_ok|cbn; lra|cbn; lra|apply good_frameb_ok; reflexivity| |reflexivity|reflexivity|reflexivity|reflexivity].
    unfold distinct_labels. cbn. repeat constructor; cbn; intuition congruence.
  - intros f [<-|[<-|[]]]; reflexivity.
Qed.
