(** * Prop_OneSided.v : C97 -- training on examples of one class only *)
From Verif Require Import Algo Useful FitRun Prop_Fit Prop_FitModel Prop_Irep Prop_Ripper Prop_Useful Demo Prop_Helpers Prop_Fires Prop_Samples Prop_Classifier.
From Verif Require Import ProbaSpec ProbaFacts ClfSpec ClfFacts RipperStages RipperTrain MetricsFacts AlgoSpec TrainView RenTrain GainFacts.
Open Scope nat_scope.

(** ** the stages of RIPPER when growing adds nothing to the empty rule set *)
Lemma random_split_nil e t s : random_split e t s [] = (take (e_split e s 0) (shuf e t []), drop (e_split e s 0) (shuf e t [])). Proof. reflexivity. Qed.
Lemma split_nil e t s : env_ok e -> random_split e t s [] = ([], []).
Proof. intros O. rewrite random_split_nil. assert (P := ok_shuf e O t []). apply Permutation_sym, Permutation_nil in P. rewrite P. unfold take, drop. destruct (norm_idx _ _); reflexivity. Qed.
Lemma dfsplit_nil e t s : env_ok e -> df_shuffled_split e t s [] = ([], []).
Proof. intros O. unfold df_shuffled_split. change (labels []) with (@nil nat). rewrite (split_nil e t s O). reflexivity. Qed.
Lemma grow_cn_nil cn pos a b : grow_rule_cn cn pos [] a b (Rule_ []) = Ok (Rule_ []). Proof. reflexivity. Qed.
Lemma grow_nil cols poss pos a b : grow_rule cols poss pos [] a b (Rule_ []) = Ok (Rule_ []). Proof. reflexivity. Qed.
Lemma ripper_cn_still e h cn t pos neg : env_ok e -> pos = [] \/ neg = [] -> exists t', ripper_grow_cn e h cn t [] pos neg = Ok ([], t').
Proof.
  intros O C. unfold ripper_grow_cn. cbn [ripper_loop_cn]. destruct C as [-> | ->]; [eexists; reflexivity|].
  destruct (_ || _); [eauto|]. destruct (stop_early _ _ _ _ _ _ _); [eauto|]. destruct (random_split e t (grow_size h) pos) as [pg pp]. rewrite (split_nil _ _ _ O).
  destruct (length pg =? 0); [eauto|]. rewrite grow_cn_nil. cbn [bind]. eexists. reflexivity.
Qed.
Lemma ripper_still e h cols poss t pos neg : env_ok e -> pos = [] \/ neg = [] -> exists t', ripper_grow e h cols poss t [] pos neg = Ok ([], t').
Proof.
  intros O C. unfold ripper_grow. cbn [ripper_loop]. destruct C as [-> | ->]; [eexists; reflexivity|].
  destruct (_ || _); [eauto|]. destruct (stop_early _ _ _ _ _ _ _); [eauto|]. destruct (df_shuffled_split e t (grow_size h) pos) as [pg pp]. rewrite (dfsplit_nil _ _ _ O).
  destruct (length pg =? 0); [eauto|]. rewrite grow_nil. cbn [bind]. eexists. reflexivity.
Qed.
(** ** one round of IREP on positive examples only *)
Lemma minus_all a : set_minus a a = [].
Proof. apply filter_none. intros i I. apply Bool.negb_false_iff. apply nmem_In. exact I. Qed.
Lemma drop_all rows : drop_labels rows (labels rows) = [].
Proof. apply filter_none. intros r I. apply Bool.negb_false_iff. apply nmem_In. apply in_map. exact I. Qed.
Lemma good_precision (l : list nat) : l <> [] -> bad_precision (precision_of (length l) 0) = false.
Proof.
  intros H. destruct l as [|a l]; [congruence|]. unfold precision_of. cbn [length]. rewrite Nat.add_0_r. replace (S (length l) =? 0) with false by reflexivity. unfold bad_precision.
  assert (E : (qdiv (S (length l)) (S (length l)) == 1)%Q). { unfold qdiv. apply Qmult_inv_r. unfold qn. intros K. apply (Qeq_bool_iff _ _) in K. discriminate. }
  apply Bool.orb_false_iff. split.
  - apply Bool.not_true_iff_false. intros K. apply Qeq_bool_iff in K. rewrite E in K. discriminate.
  - apply Bool.not_true_iff_false. intros K. apply GainFacts.Qlt_b_iff in K. rewrite E in K. discriminate.
Qed.
Definition may_grow (h : hyper) (n : nat) : Prop :=
  (forall m, h_max_rules h = Some m -> (0 < m)%Z) /\ (forall m, h_max_total_conds h = Some m -> (0 < m)%Z) /\
  (forall m, h_min_ruleset_samples h = Some m -> (m <= Z.of_nat n)%Z).
Lemma goes_on h a b : may_grow h (a + b) ->
  stop_early (length (@nil rule)) (count_conds []) a b (h_max_rules h) (h_min_ruleset_samples h) (h_max_total_conds h) = false.
Proof.
  intros (A & B & C). unfold stop_early, ge_lim, lt_lim. change (Z.of_nat (count_conds [])) with 0%Z. cbn [length Z.of_nat]. apply Bool.orb_false_iff. split; [apply Bool.orb_false_iff; split|].
  - destruct (h_max_rules h) as [m|]; auto. apply Z.leb_gt. auto.
  - destruct (h_max_total_conds h) as [m|]; auto. apply Z.leb_gt. auto.
  - destruct (h_min_ruleset_samples h) as [m|]; auto. apply Z.ltb_ge. auto.
Qed.
Lemma irep_cn_once e h cn t pos : env_ok e -> (0 <= h_prune h)%Q -> (h_prune h <= 1)%Q -> pos <> [] -> incl pos (cn_all cn) -> may_grow h (length pos) ->
  exists t', irep_grow_cn e h cn t [] pos [] = Ok ([Rule_ []], t').
Proof.
  intros O P0 P1 NE IA MG. unfold irep_grow_cn. destruct pos as [|i pos]; [congruence|]. set (l := i :: pos) in *. change (S (length l)) with (S (S (length pos))).
  cbn [irep_loop_cn]. replace (length l =? 0) with false by reflexivity. rewrite goes_on by (rewrite Nat.add_0_r; exact MG).
  destruct (random_split e t (grow_size h) l) as [pg pp] eqn:SP. rewrite (split_nil _ _ _ O). rewrite grow_cn_nil. cbn [bind].
  assert (ALL : forall k, incl k (cn_all cn) -> cn_rule_covers cn (Rule_ []) k = k). { intros k Ik. unfold cn_rule_covers. cbn [Rule_ conds]. apply filter_all. intros z Z. apply nmem_In. auto. }
  destruct (prune_off h) eqn:PO.
  - rewrite (ALL l IA), minus_all. cbn [length]. eexists. reflexivity.
  - cbn [prune_rule rule_isempty Rule_ conds bind]. 
    assert (GS : (0 <= grow_size h)%Q /\ (grow_size h < 1)%Q).
    { apply prune_on_iff in PO. unfold grow_size. split; [Lqa.lra|]. assert (0 < h_prune h)%Q by (destruct (Qlt_le_dec 0 (h_prune h)); auto; exfalso; apply PO; apply Qle_antisym; auto). Lqa.lra. }
    assert (I := random_split_incl _ _ _ _ _ _ O (proj1 GS) (Qlt_le_weak _ _ (proj2 GS)) SP). assert (Q := random_split_second _ _ _ _ _ _ O (proj1 GS) (proj2 GS) NE SP).
    rewrite (ALL pp) by (intros z Z; apply IA, (proj2 I); auto). change (cn_rule_covers cn (Rule_ []) []) with (@nil nat). cbn [length]. rewrite (good_precision pp Q).
    unfold rm_rule_covers_cn. rewrite (ALL l IA), minus_all. cbn [length]. eexists. reflexivity.
Qed.
Lemma irep_once e h cols poss t pos : env_ok e -> (0 <= h_prune h)%Q -> (h_prune h <= 1)%Q -> pos <> [] -> NoDup (labels pos) -> may_grow h (length pos) ->
  exists t', irep_grow e h cols poss t [] pos [] = Ok ([Rule_ []], t').
Proof.
  intros O P0 P1 NE ND MG. unfold irep_grow. destruct pos as [|i pos]; [congruence|]. set (l := i :: pos) in *. change (S (length l)) with (S (S (length pos))).
  cbn [irep_loop]. replace (length l =? 0) with false by reflexivity. rewrite goes_on by (rewrite Nat.add_0_r; exact MG).
  destruct (df_shuffled_split e t (grow_size h) l) as [pg pp] eqn:SP. rewrite (dfsplit_nil _ _ _ O). rewrite grow_nil. cbn [bind].
  assert (ALL : forall k, rcov cols (Rule_ []) k = k) by (intros k; unfold rcov; apply filter_all; reflexivity).
  destruct (prune_off h) eqn:PO.
  - rewrite ALL, drop_all. cbn [length]. eexists. reflexivity.
  - cbn [prune_rule rule_isempty Rule_ conds bind].
    assert (GS : (0 <= grow_size h)%Q /\ (grow_size h < 1)%Q).
    { apply prune_on_iff in PO. unfold grow_size. split; [Lqa.lra|]. assert (0 < h_prune h)%Q by (destruct (Qlt_le_dec 0 (h_prune h)); auto; exfalso; apply PO; apply Qle_antisym; auto). Lqa.lra. }
    assert (Q := df_split_second _ _ _ _ _ _ O (proj1 GS) (proj2 GS) ND NE SP).
    rewrite !ALL. cbn [length]. replace (length pp) with (length (labels pp)) by apply map_length. rewrite (good_precision (labels pp)) by (destruct pp; [congruence|discriminate]).
    rewrite !drop_all. cbn [length]. eexists. reflexivity.
Qed.

Section S.
Context {e : env} {h : hyper} {df : frame} {cf pc : pyval} {x p n p' n' : frame}.
Hypothesis ST : setting e h df cf pc x p n p' n'.
Let Eo := s_env _ _ _ _ _ _ _ _ _ _ ST.
Lemma rows_nil : (frows p = [] -> frows p' = []) /\ (frows n = [] -> frows n' = []).
Proof.
  destruct (st_rows ST) as [(_ & _ & A) (_ & _ & B)]. split; intros E; [rewrite E in A|rewrite E in B]; [destruct (frows p'); [auto|discriminate]|destruct (frows n'); [auto|discriminate]].
Qed.
Lemma irep_nothing cnopt : frows p = [] -> exists rs, irep_train e h cnopt df cf pc (Ruleset_ []) = Ok rs /\ rs_rules rs = [].
Proof.
  intros E. unfold irep_train. destruct cnopt.
  - destruct (cn_exists ST) as (cn & ->). cbn [bind]. rewrite (s_split _ _ _ _ _ _ _ _ _ _ ST). cbn [bind]. rewrite E. cbn. eexists. split; reflexivity.
  - rewrite (s_split _ _ _ _ _ _ _ _ _ _ ST). cbn [bind]. rewrite (s_p' _ _ _ _ _ _ _ _ _ _ ST). cbn [bind]. rewrite (s_n' _ _ _ _ _ _ _ _ _ _ ST). cbn [bind]. rewrite (proj1 rows_nil E). cbn. eexists. split; reflexivity.
Qed.
Lemma ripper_nothing cnopt : frows p = [] \/ frows n = [] -> exists rs, ripper_train e h cnopt df cf pc (Ruleset_ []) = Ok rs /\ rs_rules rs = [].
Proof.
  intros C. unfold ripper_train. destruct cnopt.
  - assert (C' : labels (frows p) = [] \/ labels (frows n) = []) by (destruct C as [-> | ->]; auto).
    destruct (cn_exists ST) as (cn & ->). cbn [bind]. rewrite (s_split _ _ _ _ _ _ _ _ _ _ ST). cbn [bind]. cbn zeta. cbn [rs_rules Ruleset_].
    destruct (ripper_cn_still e h cn 0 _ _ Eo C') as (t1 & ->). cbn [bind].
    destruct (iter_none (fun t rs => optimize_cn e h cn t rs (labels (frows p)) (labels (frows n))) (h_k h)) with (t := t1) as (t2 & ->).
    { intros t. unfold optimize_cn. destruct (subset_none (fun y => exceptions_cn cn y (labels (frows p)) (labels (frows n))) (length (cn_conds cn)) (cn_exc_none _ _ _)) as (q & ->).
      cbn [bind map optimize_loop_cn force_rules]. eauto. }
    cbn [bind]. unfold cover_remaining_cn. destruct (ripper_cn_still e h cn t2 _ _ Eo C') as (t3 & ->).
    assert (K : exists t4, (if 1 <=? length (labels (frows p)) then Ok ([], t3) else Ok ([], t2)) = Ok (@nil rule, t4)) by (destruct (1 <=? _); eauto). destruct K as (t4 & ->).
    cbn [bind]. destruct (subset_none (fun y => exceptions_cn cn y (labels (frows p)) (labels (frows n))) (length (cn_conds cn)) (cn_exc_none _ _ _)) as (q & ->).
    cbn [bind]. eexists. split; [reflexivity|reflexivity].
  - assert (C' : frows p' = [] \/ frows n' = []) by (destruct C as [C|C]; [left|right]; apply rows_nil; auto).
    rewrite (s_split _ _ _ _ _ _ _ _ _ _ ST). cbn [bind]. rewrite (s_p' _ _ _ _ _ _ _ _ _ _ ST). cbn [bind]. rewrite (s_n' _ _ _ _ _ _ _ _ _ _ ST). cbn [bind]. cbn zeta. cbn [rs_rules Ruleset_].
    match goal with |- context [ripper_grow e h ?c ?q 0 [] _ _] => destruct (ripper_still e h c q 0 _ _ Eo C') as (t1 & ->) end. cbn [bind].
    match goal with |- context [optimize_iter ?f _ _ _] => destruct (iter_none f (h_k h)) with (t := t1) as (t2 & ->) end.
    { intros t. unfold optimize. match goal with |- context [best_subset ?a ?b []] => destruct (subset_none a b (df_exc_none _ _ _)) as (q & ->) end.
      cbn [bind map optimize_loop force_rules]. eauto. }
    cbn [bind]. unfold cover_remaining. replace (rs_rcov (fcols p') [] (frows p')) with (@nil row) by reflexivity.
    replace (rs_rcov (fcols p') [] (frows n')) with (@nil row) by reflexivity. cbn [labels map]. rewrite !no_labels.
    match goal with |- context [ripper_grow e h ?c ?q t2 [] _ _] => destruct (ripper_still e h c q t2 _ _ Eo C') as (t3 & ->) end. cbn [bind].
    destruct (1 <=? length (frows p')); cbn [bind];
      match goal with |- context [best_subset ?a ?b []] => destruct (subset_none a b (df_exc_none _ _ _)) as (q & ->) end;
      cbn [bind]; eexists; (split; [reflexivity|reflexivity]).
Qed.
Lemma irep_everything cnopt : frows n = [] -> frows p <> [] -> may_grow h (length (frows p)) -> exists rs, irep_train e h cnopt df cf pc (Ruleset_ []) = Ok rs /\ rs_rules rs = [Rule_ []].
Proof.
  intros E NE MG. assert (P0 := s_prune0 _ _ _ _ _ _ _ _ _ _ ST). assert (P1 := s_prune1 _ _ _ _ _ _ _ _ _ _ ST). unfold irep_train. destruct cnopt.
  - destruct (cn_exists ST) as (cn & CN). rewrite CN. cbn [bind]. rewrite (s_split _ _ _ _ _ _ _ _ _ _ ST). cbn [bind]. rewrite E. cbn [labels map rs_rules Ruleset_].
    destruct (irep_cn_once e h cn 0 (labels (frows p)) Eo P0 P1) as (t' & ->).
    + destruct (frows p); [congruence|discriminate].
    + unfold cn_make in CN. rewrite (s_x _ _ _ _ _ _ _ _ _ _ ST) in CN. cbn [bind] in CN. injection CN as <-. cbn [cn_all]. destruct (st_xgood ST) as (_ & LX & _). rewrite <- LX. apply (st_in ST).
    + unfold labels. rewrite map_length. exact MG.
    + cbn [bind]. eexists. split; reflexivity.
  - rewrite (s_split _ _ _ _ _ _ _ _ _ _ ST). cbn [bind]. rewrite (s_p' _ _ _ _ _ _ _ _ _ _ ST). cbn [bind]. rewrite (s_n' _ _ _ _ _ _ _ _ _ _ ST). cbn [bind]. rewrite (proj2 rows_nil E).
    destruct (st_rows ST) as [(_ & _ & A) _]. assert (LE : length (frows p') = length (frows p)) by (apply (f_equal (@length _)) in A; unfold labels in A; rewrite !map_length in A; exact A).
    cbn [rs_rules Ruleset_]. match goal with |- context [irep_grow e h ?c ?q 0 [] _ _] => destruct (irep_once e h c q 0 (frows p') Eo P0 P1) as (t' & ->) end.
    + intros K. rewrite K in LE. destruct (frows p); [congruence|discriminate].
    + rewrite A. apply (st_nodup ST).
    + rewrite LE. exact MG.
    + cbn [bind]. eexists. split; reflexivity.
Qed.
End S.

(** ** from the labels to the rows *)
Lemma no_pos_rows df f p vs : column df f = vs -> (forall v, In v vs -> py_eq v p = false) -> pos_rows df f p = [].
Proof.
  intros C H. apply filter_none. intros r I. unfold cell_eq. destruct (cell (fcols df) f r) as [v|] eqn:E; auto. apply H. rewrite <- C. apply column_In. eauto.
Qed.
Lemma no_neg_rows df f p vs : good_frame df -> has_col df f = true -> column df f = vs -> (forall v, In v vs -> py_eq v p = true) -> neg_rows df f p = [] /\ length (pos_rows df f p) = length vs.
Proof.
  intros [W _] HC C H. assert (K : forall r, In r (frows df) -> cell_eq (fcols df) f p r = true).
  { intros r I. destruct (col_pos_has df f HC) as (j & E & _). assert (J : j < length (fcols df)) by (apply col_pos_spec in E; destruct E as (c & E & _); eapply nth_lt; eauto).
    unfold cell_eq. destruct (cell (fcols df) f r) as [v|] eqn:V; [apply H; rewrite <- C; apply column_In; eauto|].
    unfold cell in V. rewrite E in V. apply nth_error_None in V. specialize (W r I). lia. }
  split; [apply filter_none; intros r I; rewrite K; auto|]. unfold pos_rows. rewrite filter_all by auto. rewrite <- C. symmetry. apply TransFacts.column_length; auto.
Qed.

Definition says (b : bool) (f : pyval) (bt : bin_transformer) (cl : clf) : Prop :=
  forall X names fr, prediction_input X names f fr -> good_frame fr -> frows fr <> [] -> distinct_labels fr -> binnable bt fr f ->
    clf_predict cl X names = (cl, Ok (repeat b (length (frows fr)))).

Lemma says_from w cl X y cf pc names cnopt kw f vs ix cl' x bt (b : bool) : world_ok w -> training_input X y cf names f vs ix -> NoDup ix ->
  (0 <= h_prune (hyper_of cl kw))%Q -> (h_prune (hyper_of cl kw) <= 1)%Q -> nbins_fine (h_nbins (hyper_of cl kw)) ->
  fit w cl X y cf pc names MNone cnopt kw = (cl', Ok tt) -> c_rs cl' = Some x -> c_sel cl' = Some [] -> c_bt cl' = Some bt ->
  map conds (rs_rules x) = (if b then [[]] else []) -> says b f bt cl'.
Proof.
  intros WO T ND P0 P1 NB H RS SEL BT RL X2 names2 fr PI G NE DL BN.
  destruct (C55_fitted_predict_partial _ _ _ _ _ _ _ _ _ _ _ _ _ _ _ _ _ _ _ _ WO T ND P0 P1 NB H RS SEL BT PI G NE DL BN) as (preds & E & F); [intros g []|].
  rewrite E. do 2 f_equal. clear E NE. assert (K : forall rw, some_holds bt (fcols fr) rw (rs_rules x) <-> b = true).
  { intros rw. unfold some_holds. destruct b.
    - split; auto. intros _. destruct (rs_rules x) as [|r l]; [discriminate|]. cbn in RL. injection RL as E _. exists r. split; [left; auto|]. unfold holds. rewrite E. intros c [].
    - split; [|discriminate]. intros (r & I & _). destruct (rs_rules x); [destruct I|discriminate]. }
  clear -F K. induction F as [|rw q l m Q F IH]; [reflexivity|]. cbn [length repeat]. f_equal; [|exact IH]. rewrite K in Q. destruct q, b; intuition congruence.
Qed.

(** C97. No training example of the positive class: training succeeds, with IREP or RIPPER and either engine, the model has no rules, and every prediction is "no". *)
Theorem C97_no_positives : forall w cl X y cf p names cnopt kw f vs ix,
  world_ok w -> training_input X y cf names f vs ix -> NoDup ix -> (forall v, In v vs -> py_eq v p = false) ->
  let h := hyper_of cl kw in
  (0 <= h_prune h)%Q -> (h_prune h <= 1)%Q -> (0 < h_alpha h)%Q -> (h_nbins h = None \/ exists n, h_nbins h = Some n /\ (0 <= n)%Z) ->
  exists cl' x bt, fit w cl X y cf (Some p) names MNone cnopt kw = (cl', Ok tt) /\ c_rs cl' = Some x /\ c_bt cl' = Some bt /\ c_sel cl' = Some [] /\
    rs_rules x = [] /\ says false f bt cl'.
Proof.
  intros w cl X y cf p names cnopt kw f vs ix WO T ND NP h P0 P1 A NB.
  assert (NB' : nbins_ok (h_nbins h)) by (destruct NB as [->|(n & -> & ?)]; cbn; auto).
  destruct (pre_total w cl X y cf (Some p) names kw f vs ix WO NB' T ND) as (df & q & bt & EP & G & L & HC & NE & CV & EQ); [left; discriminate|]. injection EQ as <-.
  assert (C : column_present df f) by (apply has_col_iff; auto).
  destruct (setting_exists (w_env w) h df f p (proj1 WO) P0 P1 G L C) as (x & pp & nn & p' & n' & ST).
  assert (PN : frows pp = []) by (rewrite (proj1 (st_pn ST)); eapply no_pos_rows; eauto).
  assert (TR : exists x1, train (c_alg cl) (w_env w) h cnopt df f p (Ruleset_ []) = Ok x1 /\ rs_rules x1 = []).
  { destruct (c_alg cl); cbn [train]; [apply (irep_nothing ST); auto|apply (ripper_nothing ST); auto]. }
  destruct TR as (x1 & T1 & R1).
  destruct (finish_total w (c_alg cl) h df f p x1 A G L HC) as (x2 & F2).
  { rewrite R1. intros g (r & c & [] & _). }
  destruct (cols_without_ok df f HC) as (feats & CW).
  destruct (fit_run w cl X y cf (Some p) names MNone cnopt kw df f p bt (Ruleset_ []) (Ruleset_ []) x1 x2 feats) as (cl' & E & RS & _ & _ & BT & SEL & _); auto.
  rewrite R1 in SEL. assert (R2 : rs_rules x2 = []).
  { apply finish_conds in F2. rewrite R1 in F2. assert (K : kept w h [] = []) by (unfold kept, trim_conds; destruct (h_max_total_conds h); reflexivity). rewrite K in F2. inversion F2. reflexivity. }
  exists cl', x2, bt. do 5 (split; [auto|]). eapply says_from; eauto. rewrite R2. reflexivity.
Qed.
Print Assumptions C97_no_positives.
(** Every training example is of the positive class: IREP's model is the one rule without conditions, and every prediction is "yes" -- unless a limit on the rule set forbids the first rule. *)
Theorem C97_irep_no_negatives : forall w cl X y cf p names cnopt kw f vs ix,
  c_alg cl = IREP_ -> world_ok w -> training_input X y cf names f vs ix -> NoDup ix -> (forall v, In v vs -> py_eq v p = true) ->
  let h := hyper_of cl kw in
  (0 <= h_prune h)%Q -> (h_prune h <= 1)%Q -> (0 < h_alpha h)%Q -> (h_nbins h = None \/ exists n, h_nbins h = Some n /\ (0 <= n)%Z) ->
  may_grow h (length vs) ->
  exists cl' x bt, fit w cl X y cf (Some p) names MNone cnopt kw = (cl', Ok tt) /\ c_rs cl' = Some x /\ c_bt cl' = Some bt /\ c_sel cl' = Some [] /\
    map conds (rs_rules x) = [[]] /\ says true f bt cl'.
Proof.
  intros w cl X y cf p names cnopt kw f vs ix EA WO T ND NP h P0 P1 A NB MG.
  assert (NB' : nbins_ok (h_nbins h)) by (destruct NB as [->|(n & -> & ?)]; cbn; auto).
  destruct (pre_total w cl X y cf (Some p) names kw f vs ix WO NB' T ND) as (df & q & bt & EP & G & L & HC & NE & CV & EQ); [left; discriminate|]. injection EQ as <-.
  assert (C : column_present df f) by (apply has_col_iff; auto).
  destruct (setting_exists (w_env w) h df f p (proj1 WO) P0 P1 G L C) as (x & pp & nn & p' & n' & ST).
  destruct (no_neg_rows df f p vs G HC CV NP) as [N1 N2]. rewrite <- (proj2 (st_pn ST)) in N1. rewrite <- (proj1 (st_pn ST)) in N2.
  assert (LN : length vs = length (frows df)). { rewrite <- CV. apply TransFacts.column_length; auto. apply G. }
  destruct (irep_everything ST cnopt N1) as (x1 & T1 & R1).
  { intros K. rewrite K in N2. cbn in N2. destruct (frows df); [congruence|]. cbn in LN. lia. }
  { rewrite N2. exact MG. }
  destruct (finish_total w (c_alg cl) h df f p x1 A G L HC) as (x2 & F2).
  { rewrite R1. intros g (r & c & [<-|[] ] & [] & _). }
  destruct (cols_without_ok df f HC) as (feats & CW).
  destruct (fit_run w cl X y cf (Some p) names MNone cnopt kw df f p bt (Ruleset_ []) (Ruleset_ []) x1 x2 feats) as (cl' & E & RS & _ & _ & BT & SEL & _); auto; [rewrite EA; exact T1|].
  rewrite R1 in SEL. assert (R2 : map conds (rs_rules x2) = [[]]).
  { apply finish_conds in F2. rewrite R1 in F2. apply map_conds_forall in F2. rewrite F2. unfold kept, trim_conds, remove_duplicates. cbn [remove_dups_from in_set existsb].
    destruct (h_max_total_conds h) as [m|] eqn:EM; [|reflexivity]. cbn [rev app trim_rev]. change (count_conds [Rule_ []]) with 0. destruct MG as (_ & M2 & _). specialize (M2 m EM).
    replace (m <? Z.of_nat 0)%Z with false by (symmetry; apply Z.ltb_ge; lia). reflexivity. }
  exists cl', x2, bt. do 5 (split; [auto|]). eapply says_from; eauto.
Qed.
Print Assumptions C97_irep_no_negatives.
(** ... but RIPPER's model has no rules at all, and every prediction is "no". *)
Theorem C97_ripper_no_negatives : forall w cl X y cf p names cnopt kw f vs ix,
  c_alg cl = RIPPER_ -> world_ok w -> training_input X y cf names f vs ix -> NoDup ix -> (forall v, In v vs -> py_eq v p = true) ->
  let h := hyper_of cl kw in
  (0 <= h_prune h)%Q -> (h_prune h <= 1)%Q -> (0 < h_alpha h)%Q -> (h_nbins h = None \/ exists n, h_nbins h = Some n /\ (0 <= n)%Z) ->
  exists cl' x bt, fit w cl X y cf (Some p) names MNone cnopt kw = (cl', Ok tt) /\ c_rs cl' = Some x /\ c_bt cl' = Some bt /\ c_sel cl' = Some [] /\
    rs_rules x = [] /\ says false f bt cl'.
Proof.
  intros w cl X y cf p names cnopt kw f vs ix EA WO T ND NP h P0 P1 A NB.
  assert (NB' : nbins_ok (h_nbins h)) by (destruct NB as [->|(n & -> & ?)]; cbn; auto).
  destruct (pre_total w cl X y cf (Some p) names kw f vs ix WO NB' T ND) as (df & q & bt & EP & G & L & HC & NE & CV & EQ); [left; discriminate|]. injection EQ as <-.
  assert (C : column_present df f) by (apply has_col_iff; auto).
  destruct (setting_exists (w_env w) h df f p (proj1 WO) P0 P1 G L C) as (x & pp & nn & p' & n' & ST).
  destruct (no_neg_rows df f p vs G HC CV NP) as [N1 _]. rewrite <- (proj2 (st_pn ST)) in N1.
  destruct (ripper_nothing ST cnopt (or_intror N1)) as (x1 & T1 & R1).
  destruct (finish_total w (c_alg cl) h df f p x1 A G L HC) as (x2 & F2).
  { rewrite R1. intros g (r & c & [] & _). }
  destruct (cols_without_ok df f HC) as (feats & CW).
  destruct (fit_run w cl X y cf (Some p) names MNone cnopt kw df f p bt (Ruleset_ []) (Ruleset_ []) x1 x2 feats) as (cl' & E & RS & _ & _ & BT & SEL & _); auto; [rewrite EA; exact T1|].
  rewrite R1 in SEL. assert (R2 : rs_rules x2 = []).
  { apply finish_conds in F2. rewrite R1 in F2. assert (K : kept w h [] = []) by (unfold kept, trim_conds; destruct (h_max_total_conds h); reflexivity). rewrite K in F2. inversion F2. reflexivity. }
  exists cl', x2, bt. do 5 (split; [auto|]). eapply says_from; eauto. rewrite R2. reflexivity.
Qed.
Print Assumptions C97_ripper_no_negatives.

(** the example table of Prop_Fit with the labels 0/1, asked for a class that does not occur; and with the labels all 1 *)
Definition all_ones : ydata := YSeries (Some (s_ "t")) [10; 11; 12; 13; 14; 15] [PInt 1; PInt 1; PInt 1; PInt 1; PInt 1; PInt 1].
Lemma ones_input : training_input (DRows people) (Some all_ones) None (Some [s_ "u"; s_ "v"]) (s_ "t") (y_vals all_ones) [10; 11; 12; 13; 14; 15].
Proof.
  apply (input_labels _ _ _ _ _ _ _ all_ones people_fr); auto.
  - eapply names_series; reflexivity.
  - apply (table_rows_named people 2 people_fr); auto; [discriminate|]. intros r I. repeat (destruct I as [<-|I]; [reflexivity|]). destruct I.
  - apply good_frameb_ok. vm_compute. reflexivity.
  - discriminate.
  - reflexivity.
Qed.
Definition told (a : clf) (y : ydata) (p : pyval) : option (list (list cond)) * res (list bool) :=
  let cl := fst (fit w1 a (DRows people) (Some y) None (Some p) (Some [s_ "u"; s_ "v"]) MNone true []) in
  (option_map (fun x => map conds (rs_rules x)) (c_rs cl), snd (clf_predict cl (DRows [[s_ "q"; PInt 7]]) (Some [s_ "u"; s_ "v"]))).
Example C97_nonvacuous :
  training_input (DRows people) (Some all_ones) None (Some [s_ "u"; s_ "v"]) (s_ "t") (y_vals all_ones) [10; 11; 12; 13; 14; 15] /\
  told irep_bins2 people_y (s_ "z") = (Some [], Ok [false]) /\ told ripper_bins2 people_y (s_ "z") = (Some [], Ok [false]) /\
  told irep_bins2 all_ones (PInt 1) = (Some [[]], Ok [true]) /\ told ripper_bins2 all_ones (PInt 1) = (Some [], Ok [false]).
Proof. split; [exact ones_input|]. repeat split; vm_compute; reflexivity. Qed.
