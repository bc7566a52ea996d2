(** * Algo.v : the training loop of IREP carries out the published algorithm (AlgoSpec) *)
From Verif Require Export AlgoSpec IrepTrain.
From Verif Require Import Prop_Irep.
From Coq Require Import Lqa.
Open Scope nat_scope.

Section A.
Context {E : Type} (cs : cond -> E -> bool).
Lemma user_halt_iff h n a b : user_halt n a b (h_max_rule_conds h) (h_min_rule_samples h) = true <->
  (exists m, h_max_rule_conds h = Some m /\ (m <= Z.of_nat n)%Z) \/ (exists m, h_min_rule_samples h = Some m /\ (Z.of_nat (a + b) < m)%Z).
Proof.
  unfold user_halt, ge_lim, lt_lim. rewrite Bool.orb_true_iff. split; (intros [H|H]; [left|right]).
  - destruct (h_max_rule_conds h) as [m|]; [|discriminate]. exists m. split; auto. apply Z.leb_le; auto.
  - destruct (h_min_rule_samples h) as [m|]; [|discriminate]. exists m. split; auto. apply Z.ltb_lt; auto.
  - destruct H as (m & -> & H). apply Z.leb_le; auto.
  - destruct H as (m & -> & H). apply Z.ltb_lt; auto.
Qed.
End A.

Lemma halt_false h cov pos neg r : user_halt (length (conds r)) (length (cov (Rule_ (conds r)) neg)) (length (cov (Rule_ (conds r)) pos))
  (h_max_rule_conds h) (h_min_rule_samples h) = false -> ~ rule_limit h cov pos neg (conds r).
Proof. intros H C. apply user_halt_iff in C. congruence. Qed.

Section G.
Context (cs : cond -> nat -> bool) (h : hyper) (cand : list cond).
Let cov := gcov cs.
Lemma gexit_greedy pos neg r g : gexit cs (fun _ => cand) pos neg (h_max_rule_conds h) (h_min_rule_samples h) r g ->
  greedy h cov cand pos neg (conds r) (conds g).
Proof.
  assert (K : forall l, cov (Rule_ (conds r)) l = gcov cs r l) by reflexivity.
  intros [H|H H1|H H1 H2].
  - apply greedy_done. rewrite K. auto.
  - assert (L : rule_limit h cov pos neg (conds r)). { apply user_halt_iff in H1. exact H1. }
    unfold halted_rule. destruct (h_min_rule_samples h) as [m|] eqn:M.
    + replace (conds (match conds r with [] => r | _ :: _ => pop_cond r end)) with (removelast (conds r)) by (destruct (conds r) eqn:Ec; cbn [pop_cond set_conds conds]; rewrite Ec; reflexivity).
      apply greedy_limit_back with m; auto.
    + apply greedy_limit; auto.
  - apply greedy_stuck; auto; [apply halt_false; auto|]. intros d D. pose proof (gsucc_spec cs (fun _ => cand) r pos neg) as S. rewrite H2 in S. apply S; auto.
Qed.
Lemma chain_greedy pos neg r r1 g : gchain cs (fun _ => cand) pos neg (h_max_rule_conds h) (h_min_rule_samples h) r r1 ->
  greedy h cov cand pos neg (conds r1) (conds g) -> greedy h cov cand pos neg (conds r) (conds g).
Proof.
  induction 1 as [r|r c r' H H1 H2 H3 H4 H5 H6 IH]; intros X; auto. apply greedy_more with (Rule_ (conds r ++ [c])); auto.
  - apply halt_false; auto.
  - pose proof (gsucc_spec cs (fun _ => cand) r pos neg) as S. rewrite H2 in S. exact S.
Qed.
Lemma grow_greedy fuel pos neg g : ggrow cs fuel (fun _ => cand) pos neg (h_max_rule_conds h) (h_min_rule_samples h) (Rule_ []) = Ok g ->
  greedy h cov cand pos neg [] (conds g).
Proof.
  intros H. apply ggrow_spec in H. destruct H as (r1 & C & X). apply gexit_greedy in X. exact (chain_greedy _ _ _ _ _ C X).
Qed.
Lemma prune_pruned pp np g s : pp <> [] -> prune_rule (gmetric cs pp np) g = Ok (Some s) -> pruned_to cov pp np (conds g) (conds s).
Proof.
  intros NE H. destruct (conds g) as [|c0 t0] eqn:C.
  { rewrite prune_rule_empty in H by auto. injection H as <-. left. auto. }
  right. rewrite <- C in *.
  set (v := fun p => match gmetric cs pp np (set_conds g p) with Ok (Some q) => q | _ => 0%Q end).
  assert (V : forall p, gmetric cs pp np (set_conds g p) = Ok (Some (v p)) /\ (v p == prune_value cov pp np p)%Q /\ (0 <= v p)%Q).
  { intros p. unfold v, gmetric. destruct (irep_metric_value (length pp) (length np) (length (gcov cs (set_conds g p) pp)) (length (gcov cs (set_conds g p) np)))
      as (q & Q1 & Q2 & Q3 & _).
    - destruct pp; [congruence|]. cbn [length]. lia.
    - apply filter_length_le.
    - apply filter_length_le.
    - rewrite Q1. split; auto. }
  destruct (prune_rule_spec (gmetric cs pp np) g v) as (b & B & P & NB & B1 & _).
  - rewrite C. discriminate.
  - intros p _ _. apply V.
  - rewrite H in B. injection B as ->. cbn [conds set_conds].
    destruct B1 as (X1 & X2 & X3 & X4). { exists b. split; auto. split; auto. apply V. }
    split; auto. split; auto. split; [rewrite <- (proj1 (proj2 (V b))); auto|].
    intros p Hp Np. destruct (X4 p Hp Np) as [Y1 Y2]. rewrite <- (proj1 (proj2 (V b))), <- (proj1 (proj2 (V p))). auto.
Qed.
End G.

Lemma stop_early_iff h rs a b : stop_early (length rs) (count_conds rs) a b (h_max_rules h) (h_min_ruleset_samples h) (h_max_total_conds h) = true <->
  ruleset_limit h rs (a + b).
Proof.
  unfold stop_early, ruleset_limit, ge_lim, lt_lim. change (total_conds rs) with (count_conds rs). rewrite !Bool.orb_true_iff. split.
  - intros [[H|H]|H].
    + left. destruct (h_max_rules h) as [m|]; [|discriminate]. exists m. split; auto. apply Z.leb_le; auto.
    + right; left. destruct (h_max_total_conds h) as [m|]; [|discriminate]. exists m. split; auto. apply Z.leb_le; auto.
    + right; right. destruct (h_min_ruleset_samples h) as [m|]; [|discriminate]. exists m. split; auto. apply Z.ltb_lt; auto.
  - intros [(m & -> & H)|[(m & -> & H)|(m & -> & H)]]; [left; left; apply Z.leb_le; auto|left; right; apply Z.leb_le; auto|right; apply Z.ltb_lt; auto].
Qed.
Lemma stop_no h rs a b : stop_early (length rs) (count_conds rs) a b (h_max_rules h) (h_min_ruleset_samples h) (h_max_total_conds h) = false ->
  ~ ruleset_limit h rs (a + b).
Proof. intros H C. apply stop_early_iff in C. congruence. Qed.
Lemma prune_off_iff h : prune_off h = true <-> (h_prune h == 0)%Q.
Proof. unfold prune_off. apply Qeq_bool_iff. Qed.
Lemma prune_on_iff h : prune_off h = false <-> ~ (h_prune h == 0)%Q.
Proof. rewrite <- prune_off_iff. destruct (prune_off h); split; congruence. Qed.

Section T.
Context {e h df cf pc x p n p' n'} (ST : setting e h df cf pc x p n p' n').
Let pos := labels (frows p).
Let neg := labels (frows n).
Let cov := gcov (xsat x).
Lemma cov_ok : coverage_of x cov.
Proof. destruct (st_xgood ST) as ([_ Dc] & _ & ND & _). intros r l I. apply cov_picks; auto. Qed.
Lemma pos_remaining a : remaining h x pos neg a (grem (xsat x) a pos) (gneg (xsat x) h a neg).
Proof.
  destruct (st_xgood ST) as ([_ Dc] & _ & ND & _). destruct (st_in ST) as [Ip In_]. split; [apply rem_picks; auto|]. unfold gneg. split; intros H.
  - apply prune_off_iff in H. rewrite H. auto.
  - apply prune_on_iff in H. rewrite H. apply rem_picks; auto.
Qed.
Lemma split_ok t l a b : random_split e t (grow_size h) l = (a, b) -> split_for e h l a b.
Proof.
  intros H. apply random_split_spec in H; auto; [apply (s_env _ _ _ _ _ _ _ _ _ _ ST)| |];
    unfold grow_size; pose proof (s_prune1 _ _ _ _ _ _ _ _ _ _ ST); pose proof (s_prune0 _ _ _ _ _ _ _ _ _ _ ST); lra.
Qed.
Lemma prune_ne t a pg pp : prune_off h = false -> grem (xsat x) a pos <> [] -> random_split e t (grow_size h) (grem (xsat x) a pos) = (pg, pp) -> pp <> [].
Proof.
  intros On NE S. destruct (st_in ST) as [Ip _].
  eapply (sp_on _ _ _ (st_spok ST)); [|exact On|exact NE|exact S]. intros i I. apply filter_In in I. apply Ip; tauto.
Qed.
Lemma run_step cand init a r fin : lstep (e := e) (h := h) (x := x) cand init a pos neg r -> irep_run e h x cov cand init pos neg (a ++ [r]) fin ->
  irep_run e h x cov cand init pos neg a fin.
Proof.
  intros (t & pg & pp & ng & np & g & S1 & S2 & NE & SE & G & R) X. pose proof (pos_remaining a) as RM. apply stop_no in SE.
  pose proof (split_ok _ _ _ _ S1) as P1. pose proof (split_ok _ _ _ _ S2) as P2. apply grow_greedy in G.
  destruct (prune_off h) eqn:Off.
  - subst g. apply prune_off_iff in Off as Z. 
    assert (E1 : Permutation pg (grem (xsat x) a pos)). { apply random_split_one in S1; [tauto|apply (s_env _ _ _ _ _ _ _ _ _ _ ST)|apply prune_off_grow; auto]. }
    assert (E2 : Permutation ng (gneg (xsat x) h a neg)). { apply random_split_one in S2; [tauto|apply (s_env _ _ _ _ _ _ _ _ _ _ ST)|apply prune_off_grow; auto]. }
    eapply run_unpruned; eauto.
  - destruct R as [R B]. eapply run_accepted with (pp := pp) (np := np); eauto.
    + apply prune_on_iff; auto.
    + apply prune_pruned; auto. eapply prune_ne; eauto.
    + apply good_prec in B. exact B.
Qed.
Lemma run_end cand init a : lstop (e := e) (h := h) (x := x) cand init a pos neg -> irep_run e h x cov cand init pos neg a a.
Proof.
  pose proof (pos_remaining a) as RM. intros [H|[[NE H]|[On (t & pg & pp & ng & np & g & r & S1 & S2 & NE & SE & G & R & B)]]].
  - apply run_covered. rewrite <- H. apply RM.
  - eapply run_limit; eauto. apply stop_early_iff; auto.
  - eapply run_rejected with (pp := pp) (np := np) (b := conds r).
    + exact RM.
    + exact NE.
    + apply stop_no; exact SE.
    + apply prune_on_iff; auto.
    + eapply split_ok; eauto.
    + eapply split_ok; eauto.
    + eapply grow_greedy; eauto.
    + apply prune_pruned; auto. eapply prune_ne; eauto.
    + intros [C1 C2]. apply bad_prec_spec in B. unfold cov in *. change (gcov (xsat x) (Rule_ (conds r))) with (gcov (xsat x) r) in *. lia.
Qed.
Lemma steps_run cand init new : (forall u r v, new = u ++ r :: v -> lstep (e := e) (h := h) (x := x) cand init u pos neg r) ->
  lstop (e := e) (h := h) (x := x) cand init new pos neg -> forall v u, new = u ++ v -> irep_run e h x cov cand init pos neg u new.
Proof.
  intros S T. induction v as [|r v IH]; intros u Eq.
  - rewrite app_nil_r in Eq. subst u. apply run_end; auto.
  - apply run_step with r; [eapply S; eauto|]. apply IH. rewrite <- app_assoc. exact Eq.
Qed.

Lemma listed_conds (vals : pyval -> list pyval) cols c : listed (flat_map (fun f => map (mkcond f) (vals f)) cols) c <->
  In (cfeat c) cols /\ exists v, In v (vals (cfeat c)) /\ py_eq v (cval c) = true.
Proof.
  unfold listed. split.
  - intros (d & I & F & V). apply in_flat_map in I. destruct I as (f & I1 & I2). apply in_map_iff in I2. destruct I2 as (v & <- & I2).
    cbn in F, V. subst f. eauto.
  - intros (I & v & I1 & V). exists (mkcond (cfeat c) v). split; auto. apply in_flat_map. exists (cfeat c). split; auto. apply in_map; auto.
Qed.
Lemma occurs_column y l c : fcols y = fcols x -> incl (frows y) (frows x) -> labels (frows y) = l ->
  In (cfeat c) (fcols x) -> ((exists v, In v (column y (cfeat c)) /\ py_eq v (cval c) = true) <-> occurs x l c).
Proof.
  intros C I L F. destruct (st_xgood ST) as ([_ Dc] & _ & ND & _). unfold occurs. split.
  - intros (v & V & Q). split; auto. apply column_In in V. destruct V as (rw & I1 & V). rewrite C in V. exists rw, v. split; auto. split; [subst l; apply in_map; auto|].
    split; auto. apply cell_value_at; auto.
  - intros (_ & rw & v & I1 & I2 & V & Q). exists v. split; auto. apply column_In. subst l. apply in_map_iff in I2. destruct I2 as (rw' & L2 & I2).
    assert (rw' = rw) as <-. { apply (NoDup_map_inj rlab (frows x)); auto. }
    exists rw'. split; auto. rewrite C. apply cell_value_at; auto.
Qed.
Lemma unique_equal vs w : (exists v, In v (unique vs) /\ py_eq v w = true) <-> (exists v, In v vs /\ py_eq v w = true).
Proof.
  split; intros (v & I & Q).
  - exists v. split; auto. apply unique_In; auto.
  - apply unique_complete in I. destruct I as (u & I & U). exists u. split; auto. unfold uniq_eq in U. apply Bool.orb_true_iff in U. destruct U as [U|U].
    + eapply py_eq_trans; eauto.
    + apply Bool.andb_true_iff in U. destruct U as [_ U]. destruct v; try discriminate U. rewrite py_eq_nan_l in Q. discriminate.
Qed.
Lemma cand_ok cnopt old : candidates cnopt x pos neg old (cand_conds e cnopt x old p' n').
Proof.
  destruct (st_rows ST) as [(R1 & R2 & R3) (R4 & R5 & R6)]. unfold candidates, cand_conds. destruct cnopt.
  - intros c. unfold cn_possible_conds. rewrite (listed_conds (fun f => unique (column x f))). split.
    + intros [F H]. apply (proj1 (unique_equal _ _)) in H. apply (occurs_column x (labels (frows x)) c eq_refl (incl_refl _) eq_refl F). exact H.
    + intros H. pose proof (proj1 H) as F. split; auto. apply (proj2 (unique_equal _ _)). apply (occurs_column x (labels (frows x)) c eq_refl (incl_refl _) eq_refl F). exact H.
  - eexists. split; [reflexivity|]. intros c. rewrite (listed_conds (fun f => set_order e (shared_values f p' n'))). rewrite R1.
    assert (K : (exists v, In v (set_order e (shared_values (cfeat c) p' n')) /\ py_eq v (cval c) = true) <->
      (exists v, In v (column p' (cfeat c)) /\ py_eq v (cval c) = true) /\ (exists v, In v (column n' (cfeat c)) /\ py_eq v (cval c) = true)).
    { split.
      - intros (v & I & Q). apply (Permutation_in _ (ok_set e (Eo ST) _)) in I. unfold shared_values in I. apply filter_In in I. destruct I as [I J].
        apply existsb_exists in J. destruct J as (w & J & W). split; [exists v; split; auto; apply unique_In; auto|].
        exists w. split; [apply unique_In; auto|]. eapply py_eq_trans; eauto.
      - intros [A B]. apply (proj2 (unique_equal _ _)) in A, B. destruct A as (v & I & Q). destruct B as (w & J & W). exists v. split; auto.
        apply (Permutation_in _ (Permutation_sym (ok_set e (Eo ST) _))). unfold shared_values. apply filter_In. split; auto. apply existsb_exists. exists w. split; auto.
        eapply py_eq_trans; [exact W|]. rewrite py_eq_sym; auto. }
    split.
    + intros [F H]. apply K in H. destruct H as [A B]. split; [apply (occurs_column p' _ c R1 R2 R3 F)|apply (occurs_column n' _ c R4 R5 R6 F)]; auto.
    + intros [A B]. pose proof (proj1 A) as F. split; auto. apply K. split; [apply (occurs_column p' _ c R1 R2 R3 F)|apply (occurs_column n' _ c R4 R5 R6 F)]; auto.
Qed.

Lemma irep_train_algo cnopt init rs : irep_train e h cnopt df cf pc init = Ok rs ->
  exists new cand, rs_rules rs = rs_rules init ++ new /\ candidates cnopt x pos neg (old_possible init) cand /\
    irep_run e h x cov cand (rs_rules init) pos neg [] new.
Proof.
  intros H. destruct (irep_train_run ST _ _ _ H) as (new & E1 & E2 & E3). exists new, (cand_conds e cnopt x (old_possible init) p' n').
  split; auto. split; [apply cand_ok|]. apply (steps_run _ _ _ E2 E3 new []). reflexivity.
Qed.
End T.
