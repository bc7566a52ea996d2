(** * Prop_Samples.v : C94 -- min_ruleset_samples and the other limits on the growth of the rule set take effect at once *)
From Verif Require Import Algo Useful FitRun Prop_Fit Prop_FitModel Prop_Irep Prop_Ripper Prop_Useful Demo Prop_Helpers Prop_Fires.
From Verif Require Import ProbaSpec ProbaFacts ClfSpec ClfFacts RipperStages RipperTrain MetricsFacts AlgoSpec.
Open Scope nat_scope.

(** A limit on the rule set that is already reached when training starts on [n] examples without any rule *)
Definition nothing_may_grow (h : hyper) (n : nat) : Prop :=
  (exists m, h_max_rules h = Some m /\ (m <= 0)%Z) \/ (exists m, h_max_total_conds h = Some m /\ (m <= 0)%Z) \/
  (exists m, h_min_ruleset_samples h = Some m /\ (Z.of_nat n < m)%Z).

Lemma stopped_now h a b : nothing_may_grow h (a + b) ->
  stop_early (length (@nil rule)) (count_conds []) a b (h_max_rules h) (h_min_ruleset_samples h) (h_max_total_conds h) = true.
Proof.
  intros H. unfold stop_early, ge_lim, lt_lim. destruct H as [(m & -> & H)|[(m & -> & H)|(m & -> & H)]]; cbn [length count_conds Z.of_nat].
  - replace (m <=? 0)%Z with true; [reflexivity|]. symmetry. apply Z.leb_le. exact H.
  - change (Z.of_nat (count_conds [])) with 0%Z. replace (m <=? 0)%Z with true; [|symmetry; apply Z.leb_le; exact H]. rewrite Bool.orb_true_r. reflexivity.
  - replace (Z.of_nat (a + b) <? m)%Z with true; [|symmetry; apply Z.ltb_lt; exact H]. apply Bool.orb_true_r.
Qed.
Lemma irep_loop_cn_now e h cn t pos neg : nothing_may_grow h (length pos + length neg) -> irep_grow_cn e h cn t [] pos neg = Ok ([], t).
Proof. intros H. unfold irep_grow_cn. cbn [irep_loop_cn]. rewrite (stopped_now _ _ _ H). destruct (length pos =? 0); reflexivity. Qed.
Lemma irep_loop_now e h cols poss t pos neg : nothing_may_grow h (length pos + length neg) -> irep_grow e h cols poss t [] pos neg = Ok ([], t).
Proof. intros H. unfold irep_grow. cbn [irep_loop]. rewrite (stopped_now _ _ _ H). destruct (length pos =? 0); reflexivity. Qed.
Lemma ripper_loop_cn_now e h cn t pos neg : nothing_may_grow h (length pos + length neg) -> ripper_grow_cn e h cn t [] pos neg = Ok ([], t).
Proof. intros H. unfold ripper_grow_cn. cbn [ripper_loop_cn]. rewrite (stopped_now _ _ _ H). destruct (_ || _); reflexivity. Qed.
Lemma ripper_loop_now e h cols poss t pos neg : nothing_may_grow h (length pos + length neg) -> ripper_grow e h cols poss t [] pos neg = Ok ([], t).
Proof. intros H. unfold ripper_grow. cbn [ripper_loop]. rewrite (stopped_now _ _ _ H). destruct (_ || _); reflexivity. Qed.
Lemma exception_none a b : exists q, exception_bits (Z.of_nat a + Z.of_nat b) (Z.of_nat 0 + Z.of_nat 0) (Z.of_nat 0) (Z.of_nat a - Z.of_nat 0) = Ok q.
Proof.
  unfold exception_bits. replace (Z.of_nat a + Z.of_nat b - (Z.of_nat 0 + Z.of_nat 0))%Z with (Z.of_nat (a + b)) by lia.
  replace (Z.of_nat 0 + Z.of_nat 0)%Z with (Z.of_nat 0) by lia. replace (Z.of_nat a - Z.of_nat 0)%Z with (Z.of_nat a) by lia. rewrite !nCr_binom.
  pose proof (MetricsFacts.binom_pos 0 0 (le_n 0)). pose proof (MetricsFacts.binom_pos (a + b) a ltac:(lia)).
  replace (Z.of_nat (binom 0 0) <=? 0)%Z with false by (symmetry; apply Z.leb_gt; lia).
  replace (Z.of_nat (binom (a + b) a) <=? 0)%Z with false by (symmetry; apply Z.leb_gt; lia). cbn [orb]. eauto.
Qed.
Lemma subset_none exc n : (exists q, exc [] = Ok q) -> exists q, best_subset exc n [] = Ok ([], q).
Proof. intros (q & H). unfold best_subset. cbn [subset_dls bind keep_rules]. unfold total_bits. cbn [rs_theory bind]. rewrite H. cbn [bind]. eauto. Qed.
Lemma cn_exc_none cn pos neg : exists q, exceptions_cn cn [] pos neg = Ok q.
Proof. unfold exceptions_cn. replace (cn_rs_covers cn [] pos) with (@nil nat) by reflexivity. replace (cn_rs_covers cn [] neg) with (@nil nat) by reflexivity. apply exception_none. Qed.
Lemma df_exc_none cols pos neg : exists q, exceptions_df cols [] pos neg = Ok q.
Proof. unfold exceptions_df. replace (rs_rcov cols [] pos) with (@nil row) by reflexivity. replace (rs_rcov cols [] neg) with (@nil row) by reflexivity. apply exception_none. Qed.
Lemma iter_none pass k : (forall t, exists t', pass t [] = Ok ([], t')) -> forall t, exists t', optimize_iter pass k t [] = Ok ([], t').
Proof.
  intros H. induction k as [|k IH]; intros t; cbn [optimize_iter]; eauto. destruct (H t) as (t' & ->). cbn [bind]. destruct (_ && _); eauto.
Qed.
Lemma no_labels rows : drop_labels rows [] = rows.
Proof. unfold drop_labels. apply filter_all. intros; reflexivity. Qed.

Section S.
Context {e : env} {h : hyper} {df : frame} {cf pc : pyval} {x p n p' n' : frame}.
Hypothesis ST : setting e h df cf pc x p n p' n'.
Lemma split_count : length (labels (frows p)) + length (labels (frows n)) = length (frows df).
Proof.
  destruct (st_pn ST) as [-> ->]. unfold labels. rewrite !map_length. unfold pos_rows, neg_rows. induction (frows df) as [|r l IH]; cbn; auto. destruct (cell_eq (fcols df) cf pc r); cbn; lia.
Qed.
Lemma split_count' : length (frows p') + length (frows n') = length (frows df).
Proof.
  destruct (st_rows ST) as [(_ & _ & A) (_ & _ & B)]. pose proof split_count as C. rewrite <- A, <- B in C. unfold labels in C. rewrite !map_length in C. exact C.
Qed.
Lemma cn_exists : exists cn, cn_make df cf = Ok cn.
Proof. unfold cn_make. rewrite (s_x _ _ _ _ _ _ _ _ _ _ ST). cbn [bind]. eauto. Qed.
Hypothesis N : nothing_may_grow h (length (frows df)).
Lemma irep_none cnopt : exists rs, irep_train e h cnopt df cf pc (Ruleset_ []) = Ok rs /\ rs_rules rs = [].
Proof.
  unfold irep_train. destruct cnopt.
  - destruct cn_exists as (cn & ->). cbn [bind]. rewrite (s_split _ _ _ _ _ _ _ _ _ _ ST). cbn [bind]. cbn [rs_rules Ruleset_].
    rewrite irep_loop_cn_now by (rewrite split_count; exact N). cbn [bind]. eexists. split; [reflexivity|reflexivity].
  - rewrite (s_split _ _ _ _ _ _ _ _ _ _ ST). cbn [bind]. rewrite (s_p' _ _ _ _ _ _ _ _ _ _ ST). cbn [bind]. rewrite (s_n' _ _ _ _ _ _ _ _ _ _ ST). cbn [bind]. cbn [rs_rules Ruleset_].
    rewrite irep_loop_now by (rewrite split_count'; exact N). cbn [bind]. eexists. split; [reflexivity|reflexivity].
Qed.
Lemma ripper_none cnopt : exists rs, ripper_train e h cnopt df cf pc (Ruleset_ []) = Ok rs /\ rs_rules rs = [].
Proof.
  unfold ripper_train. destruct cnopt.
  - destruct cn_exists as (cn & ->). cbn [bind]. rewrite (s_split _ _ _ _ _ _ _ _ _ _ ST). cbn [bind]. cbn zeta. cbn [rs_rules Ruleset_].
    rewrite ripper_loop_cn_now by (rewrite split_count; exact N). cbn [bind].
    destruct (iter_none (fun t rs => optimize_cn e h cn t rs (labels (frows p)) (labels (frows n))) (h_k h)) with (t := 0) as (t2 & ->).
    { intros t. unfold optimize_cn. destruct (subset_none (fun y => exceptions_cn cn y (labels (frows p)) (labels (frows n))) (length (cn_conds cn)) (cn_exc_none _ _ _)) as (q & ->).
      cbn [bind map optimize_loop_cn force_rules]. eauto. }
    cbn [bind]. unfold cover_remaining_cn. rewrite ripper_loop_cn_now by (rewrite split_count; exact N).
    assert (C : (if 1 <=? length (labels (frows p)) then Ok ([], t2) else Ok ([], t2)) = Ok (@nil rule, t2)) by (destruct (1 <=? _); reflexivity).
    rewrite C. cbn [bind]. destruct (subset_none (fun y => exceptions_cn cn y (labels (frows p)) (labels (frows n))) (length (cn_conds cn)) (cn_exc_none _ _ _)) as (q & ->).
    cbn [bind]. eexists. split; [reflexivity|reflexivity].
  - rewrite (s_split _ _ _ _ _ _ _ _ _ _ ST). cbn [bind]. rewrite (s_p' _ _ _ _ _ _ _ _ _ _ ST). cbn [bind]. rewrite (s_n' _ _ _ _ _ _ _ _ _ _ ST). cbn [bind]. cbn zeta. cbn [rs_rules Ruleset_].
    rewrite ripper_loop_now by (rewrite split_count'; exact N). cbn [bind].
    match goal with |- context [optimize_iter ?f _ _ _] => destruct (iter_none f (h_k h)) with (t := 0) as (t2 & ->) end.
    { intros t. unfold optimize. match goal with |- context [best_subset ?a ?b []] => destruct (subset_none a b (df_exc_none _ _ _)) as (q & ->) end.
      cbn [bind map optimize_loop force_rules]. eauto. }
    cbn [bind]. unfold cover_remaining. replace (rs_rcov (fcols p') [] (frows p')) with (@nil row) by reflexivity.
    replace (rs_rcov (fcols p') [] (frows n')) with (@nil row) by reflexivity. cbn [labels map]. rewrite !no_labels.
    rewrite ripper_loop_now by (rewrite split_count'; exact N). cbn [bind].
    destruct (1 <=? length (frows p')); cbn [bind];
      match goal with |- context [best_subset ?a ?b []] => destruct (subset_none a b (df_exc_none _ _ _)) as (q & ->) end;
      cbn [bind]; eexists; (split; [reflexivity|reflexivity]).
Qed.
End S.

(** C94. Fewer training examples than min_ruleset_samples (or max_rules, max_total_conds zero): both learners, with either engine,
    train without an error and learn no rule. *)
Theorem C94_nothing_learned : forall w cl X y cf pc names cnopt kw f vs ix,
  world_ok w -> training_input X y cf names f vs ix -> NoDup ix -> class_known vs pc ->
  let h := hyper_of cl kw in
  (0 <= h_prune h)%Q -> (h_prune h <= 1)%Q -> (0 < h_alpha h)%Q -> (h_nbins h = None \/ exists n, h_nbins h = Some n /\ (0 <= n)%Z) ->
  (exists m, h_max_rules h = Some m /\ (m <= 0)%Z) \/ (exists m, h_max_total_conds h = Some m /\ (m <= 0)%Z) \/
  (exists m, h_min_ruleset_samples h = Some m /\ (Z.of_nat (length vs) < m)%Z) ->
  exists cl' x, fit w cl X y cf pc names MNone cnopt kw = (cl', Ok tt) /\ c_rs cl' = Some x /\ rs_rules x = [].
Proof.
  intros w cl X y cf pc names cnopt kw f vs ix WO T ND K h P0 P1 A NB LIM.
  assert (NB' : nbins_ok (h_nbins h)) by (destruct NB as [->|(n & -> & ?)]; cbn; auto).
  destruct (pre_total w cl X y cf pc names kw f vs ix WO NB' T ND K) as (df & p & bt & EP & G & L & HC & NE & CV & _).
  assert (C : column_present df f) by (apply has_col_iff; auto). destruct WO as [Eo _].
  destruct (setting_exists (w_env w) h df f p Eo P0 P1 G L C) as (x & pp & nn & p' & n' & ST).
  assert (LN : length vs = length (frows df)). { rewrite <- CV. apply TransFacts.column_length; auto. apply G. }
  rewrite LN in LIM.
  assert (TR : exists x1, train (c_alg cl) (w_env w) h cnopt df f p (Ruleset_ []) = Ok x1 /\ rs_rules x1 = []).
  { destruct (c_alg cl); cbn [train]; [apply (irep_none ST LIM)|apply (ripper_none ST LIM)]. }
  destruct TR as (x1 & T1 & R1).
  destruct (finish_total w (c_alg cl) h df f p x1 A G L HC) as (x2 & F2).
  { rewrite R1. intros g (r & c & [] & _). }
  destruct (cols_without_ok df f HC) as (feats & CW).
  destruct (fit_run w cl X y cf pc names MNone cnopt kw df f p bt (Ruleset_ []) (Ruleset_ []) x1 x2 feats) as (cl' & E & RS & _); auto.
  exists cl', x2. split; auto. split; auto. destruct (rs_rules x2) as [|r l] eqn:Q; auto. exfalso.
  destruct (finish_In w (c_alg cl) h df f p x1 x2 r F2) as (r1 & I1 & _); [rewrite Q; left; auto|]. rewrite R1 in I1. destruct I1.
Qed.
Print Assumptions C94_nothing_learned.

Lemma NoDup_join {A} (a b : list A) : NoDup a -> NoDup b -> (forall z, In z a -> In z b -> False) -> NoDup (a ++ b).
Proof.
  induction 1 as [|z a Z Na IH]; intros Nb D; cbn; auto. constructor.
  - intros I. apply in_app_or in I. destruct I as [I|I]; [auto|]. apply (D z); [left; auto|auto].
  - apply IH; auto. intros y I J. apply (D y); [right; auto|auto].
Qed.
(** IREP: for every rule of the fitted model there were, when its growing started, at least min_ruleset_samples training examples left
    that no earlier rule covers (with prune_size 0 the negative examples are never taken away, so there they all count). *)
Definition many_left (df : frame) (cf pc : pyval) (h : hyper) (m : Z) (before : list rule) : Prop :=
  exists left_, NoDup left_ /\ (m <= Z.of_nat (length left_))%Z /\
    forall rw, In rw left_ -> In rw (frows df) /\
      ((forall s, In s before -> ~ sat_rule (fcols df) rw s) \/ ((h_prune h == 0)%Q /\ ~ positive_row (fcols df) cf pc rw)).

Lemma rows_of_labels (df : frame) l : NoDup l -> incl l (labels (frows df)) -> exists rws, map rlab rws = l /\ incl rws (frows df) /\ NoDup rws.
Proof.
  intros N I. assert (E : exists rws, map rlab rws = l /\ incl rws (frows df)).
  { clear N. induction l as [|i l IH]; [exists []; split; auto; intros ? []|]. destruct IH as (rws & Q & J); [intros z Z; apply I; right; auto|].
    assert (K : In i (labels (frows df))) by (apply I; left; auto). apply in_map_iff in K. destruct K as (rw & <- & K). exists (rw :: rws). split; [cbn; congruence|]. intros z [<-|Z]; auto. }
  destruct E as (rws & Q & J). exists rws. split; auto. split; auto. apply (NoDup_map_inv rlab). rewrite Q. exact N.
Qed.

Lemma irep_left {e h df cf pc x p n p' n'} (ST : setting e h df cf pc x p n p' n') cnopt rs m : irep_train e h cnopt df cf pc (Ruleset_ []) = Ok rs ->
  h_min_ruleset_samples h = Some m -> forall u r v, rs_rules rs = u ++ r :: v -> many_left df cf pc h m u.
Proof.
  intros H M u r v Q. destruct (irep_pos ST _ _ _ H) as (new & E1 & E2 & POS). cbn [rs_rules Ruleset_ app] in E1. rewrite E1 in Q.
  destruct (E2 u r v Q) as (t & pg & pp & ng & np & g & _ & _ & _ & SE & _).
  unfold stop_early in SE. rewrite M in SE. apply Bool.orb_false_elim in SE. destruct SE as [_ SE]. cbn [lt_lim] in SE. apply Z.ltb_ge in SE.
  destruct (st_in ST) as [Ip In_]. destruct (st_nodup ST) as [Np Nn]. destruct (st_xgood ST) as ([_ Dc] & LX & ND & _).
  set (P := grem (xsat x) u (labels (frows p))) in *. set (G := gneg (xsat x) h u (labels (frows n))) in *.
  assert (IP : incl P (labels (frows p))) by (intros i I; apply filter_In in I; tauto).
  assert (IG : incl G (labels (frows n))). { intros i I. unfold G, gneg in I. destruct (prune_off h); auto. apply filter_In in I. tauto. }
  assert (DJ : forall i, In i (labels (frows p)) -> In i (labels (frows n)) -> False).
  { intros i I J. destruct (st_pn ST) as [Ep En]. rewrite Ep in I. rewrite En in J. apply in_map_iff in I, J. destruct I as (a & Ea & I), J as (b & Eb & J).
    apply filter_In in I, J. destruct I as [I1 I2], J as [J1 J2].
    assert (a = b) by (apply (NoDup_map_inj rlab (frows df)); auto; [apply (s_labels _ _ _ _ _ _ _ _ _ _ ST)|congruence]). subst b. rewrite I2 in J2. discriminate. }
  assert (NPG : NoDup (P ++ G)).
  { apply NoDup_join; [apply NoDup_filter; auto|unfold G, gneg; destruct (prune_off h); auto; apply NoDup_filter; auto|]. intros i I J. eapply DJ; eauto. }
  assert (IX : incl (P ++ G) (labels (frows df))).
  { rewrite <- LX. intros i I. apply in_app_or in I. destruct I as [I|I]; [apply Ip; auto|apply In_; auto]. }
  destruct (rows_of_labels df (P ++ G) NPG IX) as (rws & ER & IR & NR). exists rws. split; auto. split.
  - rewrite <- (map_length rlab rws), ER, app_length. exact SE.
  - intros rw Irw. split; [auto|]. assert (J : In (rlab rw) (P ++ G)) by (rewrite <- ER; apply in_map; auto).
    assert (UN : existsb (fun s => gsat (xsat x) s (rlab rw)) u = false -> forall s, In s u -> ~ sat_rule (fcols df) rw s).
    { intros EX s Is S. assert (X : gsat (xsat x) s (rlab rw) = true).
      { apply (sat_back ST); auto. apply in_split in Is. destruct Is as (u1 & u2 & Es). destruct (POS u1 s (u2 ++ r :: v)) as (i & I1 & I2).
        { rewrite Q, Es, <- app_assoc. reflexivity. }
        exists i. split; auto. apply Ip. apply filter_In in I1. tauto. }
      assert (Y : existsb (fun s => gsat (xsat x) s (rlab rw)) u = true) by (apply existsb_exists; eauto). congruence. }
    apply in_app_or in J. destruct J as [J|J].
    + left. apply UN. apply filter_In in J. destruct J as [_ J]. apply Bool.negb_true_iff in J. exact J.
    + pose proof (IG _ J) as J'. unfold G, gneg in J. destruct (prune_off h) eqn:PO.
      * right. split; [apply prune_off_iff; auto|]. intros PR. destruct (st_pn ST) as [_ En]. rewrite En in J'. apply in_map_iff in J'. destruct J' as (b & Eb & J').
        apply filter_In in J'. destruct J' as [J1 J2]. assert (b = rw) by (apply (NoDup_map_inj rlab (frows df)); auto; apply (s_labels _ _ _ _ _ _ _ _ _ _ ST)). subst b.
        apply Bool.negb_true_iff in J2. destruct PR as (z & V & E). apply cell_value_at in V; [|apply (s_good _ _ _ _ _ _ _ _ _ _ ST)]. unfold cell_eq in J2. rewrite V in J2. congruence.
      * left. apply UN. apply filter_In in J. destruct J as [_ J]. apply Bool.negb_true_iff in J. exact J.
Qed.
Lemma left_sublist df cf pc h m l l' : sublist l' l -> (forall u r v, l = u ++ r :: v -> many_left df cf pc h m u) -> forall u r v, l' = u ++ r :: v -> many_left df cf pc h m u.
Proof.
  intros S H u r v Q. destruct (sublist_at _ _ S u r v Q) as (u' & v' & Q' & I). destruct (H u' r v' Q') as (rws & A1 & A2 & A3). exists rws. split; auto. split; auto.
  intros rw J. destruct (A3 rw J) as [B [C|C]]; auto.
Qed.
Lemma left_conds df cf pc h m l l' : Forall2 same_conds l' l -> (forall u r v, l = u ++ r :: v -> many_left df cf pc h m u) -> forall u r v, l' = u ++ r :: v -> many_left df cf pc h m u.
Proof.
  intros F H u r v Q. subst l'. apply Forall2_app_inv_l in F. destruct F as (l1 & l2 & F1 & F2 & ->). inversion F2 as [|? r0 ? l3 R F3]; subst.
  destruct (H l1 r0 l3 eq_refl) as (rws & A1 & A2 & A3). exists rws. split; auto. split; auto. intros rw J. destruct (A3 rw J) as [B [C|C]]; auto. split; auto. left.
  intros s Is S. apply (Forall2_In_l _ _ _ _ F1) in Is. destruct Is as (s0 & Is & R0). unfold same_conds in R0. apply (C s0 Is). unfold sat_rule in *. rewrite <- R0. exact S.
Qed.
Theorem C94_irep_samples : forall w cl X y cf pc names cnopt kw f vs ix cl' x m,
  c_alg cl = IREP_ -> world_ok w -> training_input X y cf names f vs ix -> NoDup ix ->
  let h := hyper_of cl kw in
  (0 <= h_prune h)%Q -> (h_prune h <= 1)%Q -> (h_nbins h = None \/ exists n, h_nbins h = Some n /\ (0 <= n)%Z) ->
  fit w cl X y cf pc names MNone cnopt kw = (cl', Ok tt) -> c_rs cl' = Some x -> h_min_ruleset_samples h = Some m ->
  exists bt table binned_table p, c_bt cl' = Some bt /\ c_pc cl' = Some p /\ training_df X y f names = Ok table /\ transform bt table = Ok binned_table /\
    forall before r after, rs_rules x = before ++ r :: after -> many_left binned_table f p h m before.
Proof.
  intros w cl X y cf pc names cnopt kw f vs ix cl' x m AL WO T ND h P0 P1 NB H RS M.
  destruct (fit_trained _ _ _ _ _ _ _ _ _ _ _ _ _ _ WO T ND P0 P1 NB H) as (df & df0 & p & bt & xi & x1 & x2 & xx & pp & nn & p' & n' & FT & G & L & HC & TD & TR & ST).
  destruct FT as [FP FI FTR FF FR FC FPC FB FS FA FH FCl FFe]. rewrite FR in RS. injection RS as <-. cbn in FI. injection FI as <-.
  exists bt, df0, df, p. do 4 (split; [auto|]). rewrite AL in FTR. cbn [train] in FTR.
  apply (left_conds df f p h m (kept w h (rs_rules x1))); [eapply finish_conds; eauto|]. apply (left_sublist df f p h m (rs_rules x1)); [apply kept_sublist|].
  eapply irep_left; eauto.
Qed.
Print Assumptions C94_irep_samples.
(** in particular a model that has a rule at all was trained on at least min_ruleset_samples examples *)
Theorem C94_enough_samples : forall w cl X y cf pc names cnopt kw f vs ix cl' x m,
  world_ok w -> training_input X y cf names f vs ix -> NoDup ix -> class_known vs pc ->
  let h := hyper_of cl kw in
  (0 <= h_prune h)%Q -> (h_prune h <= 1)%Q -> (0 < h_alpha h)%Q -> (h_nbins h = None \/ exists n, h_nbins h = Some n /\ (0 <= n)%Z) ->
  fit w cl X y cf pc names MNone cnopt kw = (cl', Ok tt) -> c_rs cl' = Some x -> rs_rules x <> [] ->
  h_min_ruleset_samples h = Some m -> (m <= Z.of_nat (length vs))%Z.
Proof.
  intros w cl X y cf pc names cnopt kw f vs ix cl' x m WO T ND K h P0 P1 A NB H RS NE M. destruct (Z.le_gt_cases m (Z.of_nat (length vs))) as [|C]; auto. exfalso.
  destruct (C94_nothing_learned w cl X y cf pc names cnopt kw f vs ix WO T ND K P0 P1 A NB) as (cl2 & x2 & F & R & Q).
  { right. right. exists m. auto. }
  rewrite H in F. injection F as <-. rewrite RS in R. injection R as <-. auto.
Qed.
Print Assumptions C94_enough_samples.

(** Non-vacuity: two rules are learned when 3 samples are demanded (4 examples are left after the first rule), one when 5 are, none when 7 are *)
Definition disj_rows : list (list pyval) := [[s_ "x"; s_ "z"]; [s_ "x"; s_ "y"]; [s_ "y"; s_ "x"]; [s_ "z"; s_ "x"]; [s_ "y"; s_ "y"]; [s_ "z"; s_ "z"]].
Definition disj_y : ydata := YList [s_ "p"; s_ "p"; s_ "p"; s_ "p"; s_ "n"; s_ "n"].
Definition disj_fr : frame := mkframe [s_ "a"; s_ "b"] (map (fun p => mkrow (fst p) (snd p)) (combine (seq 0 6) disj_rows)).
Lemma disj_input : training_input (DRows disj_rows) (Some disj_y) (Some (s_ "class")) (Some [s_ "a"; s_ "b"]) (s_ "class") (y_vals disj_y) [0; 1; 2; 3; 4; 5].
Proof.
  apply (input_labels _ _ _ _ _ _ _ disj_y disj_fr); auto.
  - eapply names_given_list; reflexivity.
  - apply (table_rows_named disj_rows 2 disj_fr); auto; [discriminate|]. intros r I. repeat (destruct I as [<-|I]; [reflexivity|]). destruct I.
  - apply good_frameb_ok. reflexivity.
  - discriminate.
  - reflexivity.
Qed.
Definition disj_clf (a : alg) (m : Z) : clf := construct a [(P_prune, VQ 0); (P_min_ruleset_samples, VOpt (Some m))].
Definition disj_fit (a : alg) (m : Z) : clf * res unit :=
  fit w1 (disj_clf a m) (DRows disj_rows) (Some disj_y) (Some (s_ "class")) (Some (s_ "p")) (Some [s_ "a"; s_ "b"]) MNone true [].
Example C94_rules : map (fun m => option_map (fun x => map rule_str (rs_rules x)) (c_rs (fst (disj_fit IREP_ m)))) [3%Z; 5%Z; 7%Z] =
  [Some [$"[a=x]"; $"[b=x]"]; Some [$"[a=x]"]; Some []].
Proof. vm_compute. reflexivity. Qed.
Lemma disj_known : class_known (y_vals disj_y) (Some (s_ "p")).
Proof. left. discriminate. Qed.
Example C94_nothing_nonvacuous : exists cl' x, disj_fit RIPPER_ 7 = (cl', Ok tt) /\ c_rs cl' = Some x /\ rs_rules x = [].
Proof.
  refine (C94_nothing_learned w1 (disj_clf RIPPER_ 7) _ _ _ _ _ true [] _ _ _ w1_ok disj_input _ disj_known _ _ _ _ _); try discriminate; try reflexivity.
  - repeat constructor; cbn; intuition discriminate.
  - right. eexists. split; [reflexivity|discriminate].
  - right. right. eexists. split; [reflexivity|reflexivity].
Qed.
Example C94_irep_nonvacuous : exists x bt table binned_table p a b, c_rs (fst (disj_fit IREP_ 3)) = Some x /\
  training_df (DRows disj_rows) (Some disj_y) (s_ "class") (Some [s_ "a"; s_ "b"]) = Ok table /\ transform bt table = Ok binned_table /\
  rs_rules x = [a; b] /\ many_left binned_table (s_ "class") p (c_hyper (disj_clf IREP_ 3)) 3 [a].
Proof.
  edestruct (C94_irep_samples w1 (disj_clf IREP_ 3) (DRows disj_rows) (Some disj_y) (Some (s_ "class")) (Some (s_ "p")) (Some [s_ "a"; s_ "b"]) true []) with (m := 3%Z)
    as (bt & t & bt' & p & A1 & A2 & A3 & A4 & A5); [reflexivity|exact w1_ok|exact disj_input| |discriminate|discriminate| |vm_compute; reflexivity|vm_compute; reflexivity|reflexivity|].
  - repeat constructor; cbn; intuition discriminate.
  - right. eexists. split; [reflexivity|discriminate].
  - eexists. exists bt, t, bt', p. eexists. eexists. split; [vm_compute; reflexivity|]. split; [exact A3|]. split; [exact A4|]. split; [reflexivity|].
    eapply (A5 [_] _ []). reflexivity.
Qed.
