(** * RipperAlgo.v : the training of RIPPER, default engine, carries out the algorithm of RipperAlgoSpec *)
From Verif Require Export RipperAlgoSpec Algo OptChoice.
From Verif Require Import Prop_Irep Prop_Learn Prop_Mdl ClassFacts CalFacts.
From Coq Require Import Lqa Reals.
Open Scope nat_scope.

Section P.
Context (cs : cond -> nat -> bool).
Let cov := gcov cs.
(** pruning when a rule is added *)
Lemma worth_ok pp np g s : conds g <> [] -> prune_rule (fun r => ripper_grow_metric (length (gcov cs r pp)) (length (gcov cs r np))) g = Ok (Some s) ->
  worth_pruned cov pp np (conds g) (conds s).
Proof.
  intros NE H. set (v := fun p => match ripper_grow_metric (length (gcov cs (set_conds g p) pp)) (length (gcov cs (set_conds g p) np)) with Ok (Some q) => q | _ => 0%Q end).
  assert (V : forall p, (v p == worth cov pp np p)%Q).
  { intros p. unfold v. destruct (C24_ripper_metric (length (gcov cs (set_conds g p) pp)) (length (gcov cs (set_conds g p) np))) as (q & Q1 & Q2 & _). rewrite Q1. exact Q2. }
  destruct (prune_rule_spec (fun r => ripper_grow_metric (length (gcov cs r pp)) (length (gcov cs r np))) g v) as (b & B & P & NB & B1 & B2); auto.
  rewrite H in B. injection B as ->. cbn [conds set_conds].
  assert (DEC : (exists p, Spec.prefix p (conds g) /\ p <> [] /\ (0 <= v p)%Q) \/ (forall p, Spec.prefix p (conds g) -> p <> [] -> (v p < 0)%Q)).
  { assert (K : forall k, (exists p, Spec.prefix p (conds g) /\ p <> [] /\ (0 <= v p)%Q) \/ (forall p, Spec.prefix p (conds g) -> length p <= k -> p <> [] -> (v p < 0)%Q)).
    { induction k as [|k [IH|IH]]; [right; intros p _ L N; destruct p; [congruence|cbn in L; lia]|left; auto|].
      destruct (Qlt_le_dec (v (firstn (S k) (conds g))) 0) as [D|D].
      - right. intros p Hp L N. destruct (Nat.eq_dec (length p) (S k)) as [Q|Q]; [|apply IH; auto; lia].
        destruct Hp as (t & E). rewrite E in D. rewrite <- Q, firstn_app, Nat.sub_diag, firstn_all in D. cbn [firstn] in D. rewrite app_nil_r in D. auto.
      - left. exists (firstn (S k) (conds g)). split; [exists (skipn (S k) (conds g)); symmetry; apply firstn_skipn|]. split; auto. destruct (conds g); [congruence|discriminate]. }
    destruct (K (length (conds g))) as [A|A]; auto. right. intros p Hp N. apply A; auto. destruct Hp as (t & E). rewrite E, app_length. lia. }
  destruct DEC as [D|D].
  - left. destruct (B1 D) as (X1 & X2 & X3 & X4). split; auto. split; auto. split; [rewrite <- V; auto|].
    intros p Hp Np. destruct (X4 p Hp Np) as [Y1 Y2]. rewrite <- !V. auto.
  - right. split; [auto|]. intros p Hp Np. rewrite <- V. auto.
Qed.
(** pruning in the optimisation *)
Lemma pruned_on_ok i orig pp np g s : i < length orig -> pp <> [] ->
  prune_rule_on (fun r => accuracy_metric (length pp) (length np) (length (gcov cs r pp)) (length (gcov cs r np))) i (i_replaced orig i (Some g)) g = Ok (Some s) ->
  pruned_to cov pp np (conds g) (conds s).
Proof.
  intros I NE H. destruct (conds g) as [|c0 t0] eqn:C.
  { unfold prune_rule_on, rule_isempty in H. rewrite C in H. injection H as <-. left. auto. }
  right. rewrite <- C in *. set (met := fun r => accuracy_metric (length pp) (length np) (length (gcov cs r pp)) (length (gcov cs r np))) in *.
  set (v := fun p => match met (set_conds g p) with Ok (Some q) => q | _ => 0%Q end).
  assert (V : forall p, met (set_conds g p) = Ok (Some (v p)) /\ (v p == prune_value cov pp np p)%Q /\ (0 <= v p)%Q).
  { intros p. unfold v, met. destruct (accuracy_metric_value (length pp) (length np) (length (gcov cs (set_conds g p) pp)) (length (gcov cs (set_conds g p) np)))
      as (q & Q1 & Q2 & Q3 & _).
    - destruct pp; [congruence|]. cbn [length]. lia.
    - apply filter_length_le.
    - apply filter_length_le.
    - rewrite Q1. split; auto. }
  destruct (prune_rule_on_spec met i (i_replaced orig i (Some g)) g v) as (B & _).
  - rewrite C. discriminate.
  - unfold i_replaced. rewrite nth_error_app2; rewrite firstn_length_le by lia; [|lia]. rewrite Nat.sub_diag. reflexivity.
  - intros p _ _. apply V.
  - destruct B as (b & B & X1 & X2 & X3 & X4).
    { exists (conds g). split; [apply prefix_refl|]. split; [rewrite C; discriminate|apply V]. }
    rewrite H in B. injection B as ->. cbn [conds set_conds].
    split; auto. split; auto. split; [rewrite <- (proj1 (proj2 (V b))); auto|].
    intros p Hp Np. destruct (X4 p Hp Np) as [Y1 Y2]. rewrite <- (proj1 (proj2 (V b))), <- (proj1 (proj2 (V p))). auto.
Qed.
End P.

Lemma equal_iff a b : rs_eqb a b = true <-> equal_rulesets a b.
Proof.
  unfold rs_eqb, equal_rulesets, rule_in. rewrite Bool.andb_true_iff, !forallb_forall. split; intros [A B]; (split; [intros r I; specialize (A r I)|intros r I; specialize (B r I)]); apply existsb_exists; auto.
Qed.
Lemma subset_sizes exc n rs : forall pre th dls, subset_dls exc n pre th rs = Ok dls -> exists c, rs_theory n rs = Ok c.
Proof.
  induction rs as [|r rs IH]; intros pre th dls H; [eexists; reflexivity|]. cbn [subset_dls] in H. binv H. binv H. rename E0 into X. binv H. rename E0 into Y.
  destruct (IH _ _ _ Y) as (c & C). cbn [rs_theory]. rewrite E, C. eexists; reflexivity.
Qed.
Lemma best_sizes exc n rs k q : best_subset exc n rs = Ok (k, q) -> exists c, rs_theory n rs = Ok c.
Proof. unfold best_subset. intros H. binv H. eapply subset_sizes; eauto. Qed.

Lemma subset_totals exc n rs : forall pre th t0 dls, subset_dls exc n pre th rs = Ok dls -> rs_theory n pre = Ok t0 ->
  forall i, 0 < i -> i <= length rs -> exists q, total_bits exc n (pre ++ firstn i rs) = Ok q.
Proof.
  induction rs as [|r rs IH]; intros pre th t0 dls H T i I L; [cbn in L; lia|]. cbn [subset_dls] in H. binv H. binv H. rename E0 into X. binv H. rename E0 into Y.
  assert (RT : rs_theory n [r] = Ok (Qred (v * 1))) by (cbn [rs_theory]; rewrite E; reflexivity).
  destruct (rs_theory_app _ _ _ _ _ T RT) as (t1 & T1 & _).
  destruct i as [|[|i]]; [lia| |].
  - cbn [firstn]. unfold total_bits. rewrite T1. cbn [bind]. rewrite X. eexists; reflexivity.
  - cbn [length] in L. destruct (IH _ _ _ _ Y T1 (S i)) as (q & Q); [lia|lia|]. rewrite <- app_assoc in Q. cbn [firstn app] in *. eauto.
Qed.
Lemma set_nth_slot i (r : rule) l : i < length l -> set_nth i r l = with_slot l i r.
Proof. unfold with_slot. revert i. induction l as [|a l IH]; intros [|i] H; cbn [length] in H; try lia; cbn [set_nth firstn skipn app]; auto. rewrite IH by lia. reflexivity. Qed.

Lemma conds_distinct x cols : distinct_cols cols -> (forall f, py_eq f f = false -> column x f = []) ->
  ForallOrdPairs (fun c d => ~ same_condition c d) (flat_map (fun f => map (mkcond f) (unique (column x f))) cols).
Proof.
  intros D NN.
  assert (APP : forall (R : cond -> cond -> Prop) a b, ForallOrdPairs R a -> ForallOrdPairs R b -> (forall u v, In u a -> In v b -> R u v) -> ForallOrdPairs R (a ++ b)).
  { intros R a b A B. induction A as [|u a U A IH]; intros K; auto. cbn [app]. constructor.
    - apply Forall_app. split; auto. apply Forall_forall. intros v V. apply K; cbn; auto.
    - apply IH. intros u' v I J. apply K; cbn; auto. }
  assert (K : forall cols, (forall i j a b, nth_error cols i = Some a -> nth_error cols j = Some b -> py_eq a b = true -> i = j) ->
    ForallOrdPairs (fun c d => ~ same_condition c d) (flat_map (fun f => map (mkcond f) (unique (column x f))) cols)); [|apply K; exact D].
  clear D. intros c0. induction c0 as [|f c0 IH]; intros D; [constructor|]. cbn [flat_map]. apply APP.
  - pose proof (unique_distinct (column x f)) as U. induction U as [|v l V U IHu]; [constructor|]. cbn [map]. constructor; auto.
    apply Forall_forall. intros d I. apply in_map_iff in I. destruct I as (w & <- & I). rewrite Forall_forall in V. specialize (V w I).
    intros [_ S]. cbn [cval] in S. unfold uniq_eq in V. apply Bool.orb_false_elim in V. destruct V as [V1 V2]. destruct S as [S|[-> ->]]; [congruence|discriminate].
  - apply IH. intros i j a b A B E. specialize (D (S i) (S j) a b A B E). lia.
  - intros c d I J [E _]. apply in_map_iff in I. destruct I as (v & <- & I). apply in_flat_map in J. destruct J as (g & G & J). apply in_map_iff in J. destruct J as (w & <- & J).
    cbn [cfeat] in E. subst g. apply In_nth_error in G. destruct G as (j & G).
    destruct (py_eq f f) eqn:Q; [specialize (D 0 (S j) f f eq_refl G Q); lia|]. rewrite (NN f Q) in I. destruct I.
Qed.

Section T.
Context {e h df cf pc x p n p' n'} (ST : setting e h df cf pc x p n p' n').
Context (cn : catnap) (C : cn_make df cf = Ok cn) (NP : frows p <> []) (NN : frows n <> []) (HA : (0 <= h_dl h)%Z) (PL : (0 < h_prune h)%Q).
Let pos := labels (frows p).
Let neg := labels (frows n).
Let cov := gcov (lsat cn).
Let cand := cn_conds cn.
Let bits := bits_on x (length cand) pos neg.
Lemma t_index : is_index cn x /\ distinct_cols (fcols x) /\ NoDup (labels (frows x)).
Proof. destruct (st_index ST) as (cn' & C' & IX & Gx & NDx & Lx). rewrite C in C'. apply Ok_inj in C'. subst cn'. destruct Gx. auto. Qed.
Lemma t_in : incl pos (cn_all cn) /\ incl neg (cn_all cn).
Proof. apply (idx_in ST cn). apply t_index. Qed.
Lemma t_sat r i : In i (labels (frows x)) -> gsat (lsat cn) r i = gsat (xsat x) r i.
Proof.
  destruct t_index as (IX & Dc & ND). intros I. unfold gsat. induction (conds r) as [|c l IH]; auto. cbn [forallb]. rewrite IH, (xsat_cn cn x) by auto. auto.
Qed.
Lemma t_cov : coverage_of x cov.
Proof.
  destruct t_index as (IX & Dc & ND). intros r l I. unfold cov, gcov. rewrite (filter_ext_in _ (gsat (xsat x) r)); [apply cov_picks; auto|]. intros i Ii. apply t_sat. apply I; auto.
Qed.
Lemma t_rem a l : incl l (cn_all cn) -> picks (uncovered_label x a) l (grem (lsat cn) a l).
Proof.
  destruct t_index as (IX & Dc & ND). intros I. assert (I' : incl l (labels (frows x))) by (destruct IX as (_ & _ & A); rewrite <- A; auto).
  assert (E : grem (lsat cn) a l = grem (xsat x) a l).
  { unfold grem. apply filter_ext_in. intros i Ii. f_equal. induction a as [|r a IH]; auto. cbn [existsb]. rewrite IH, t_sat by auto. auto. }
  rewrite E. apply rem_picks; auto.
Qed.
Lemma t_remin a l : incl l (cn_all cn) -> incl (grem (lsat cn) a l) (cn_all cn).
Proof. intros I i J. apply filter_In in J. apply I; tauto. Qed.
Lemma t_cand : conditions_of x cand.
Proof.
  destruct t_index as (IX & Dc & ND). unfold cand. rewrite (proj1 IX). split; [|split].
  - intros c I. apply possible_In in I. destruct I as (f & v & F & V & ->). split; auto. cbn [cfeat cval]. apply unique_In, column_In in V. destruct V as (rw & R & V). exists rw. split; auto.
    apply cell_value_at; auto.
  - intros c (F & rw & R & V). apply cell_value_at in V; auto. assert (J : In (cval c) (column x (cfeat c))) by (apply column_In; eauto).
    apply unique_complete in J. destruct J as (u & J & U). exists (mkcond (cfeat c) u). split; [apply possible_In; eauto|]. split; [reflexivity|]. cbn [cval].
    unfold uniq_eq in U. apply Bool.orb_true_iff in U. destruct U as [U|U]; auto. right. apply Bool.andb_true_iff in U. destruct U as [U1 U2]. destruct u; try discriminate U1. destruct (cval c); try discriminate U2. auto.
  - apply conds_distinct; auto. intros f Q. destruct (column x f) as [|v l] eqn:E; auto. exfalso.
    assert (I : In v (column x f)) by (rewrite E; cbn; auto). apply column_In in I. destruct I as (rw & R & V). apply cell_value_at in V; auto.
    destruct V as (i & a & V1 & V2 & _). rewrite (py_eq_refl_r _ _ V2) in Q. discriminate Q.
Qed.
Lemma t_bits rs q b : total_bits (cn_exc cn pos neg) (length cand) rs = Ok q -> (bits rs b <-> b = bits_of q).
Proof. intros H. apply (bits_on_iff ST cn); auto. Qed.
Lemma t_pos l q : cn_exc cn pos neg l = Ok q -> (0 < q)%Q.
Proof. apply cn_exc_pos. Qed.
Lemma t_off : prune_off h = false.
Proof. apply prune_on_iff. intros Q. rewrite Q in PL. discriminate. Qed.
Lemma t_split t l a b : cn_split e h t l = (a, b) -> split_for e h l a b.
Proof. apply (split_ok ST). Qed.
Lemma t_over init a st diff c : rs_theory (length cand) init = Ok c -> Allowance.inv (cn_exc cn pos neg) (length cand) init a st diff ->
  (within_allowance diff (h_dl h) = false <-> too_long bits (h_dl h) init a).
Proof.
  intros HC I. rewrite (inv_over _ _ _ t_pos _ _ _ _ I HA). apply (over_bits _ _ _ _ c); auto; [apply t_pos| |].
  - intros w q b. apply t_bits.
  - intros w W. exact (inv_defined _ _ _ _ _ _ I w W).
Qed.
Lemma t_build init c : rs_theory (length cand) init = Ok c -> forall fuel t a st diff rs t', Allowance.inv (cn_exc cn pos neg) (length cand) init a st diff ->
  grip (lsat cn) (cn_cands cn) (cn_split e h) h (cn_prune h cn) (cn_exc cn pos neg) (length cand) fuel t (init ++ a) st diff (grem (lsat cn) a pos) (grem (lsat cn) a neg) = Ok (rs, t') ->
  exists new, rs = init ++ new /\ build e h x cov cand bits init pos neg a new.
Proof.
  intros HC. destruct t_in as [Ip In_]. induction fuel as [|k IH]; intros t a st diff rs t' I H; [discriminate|]. cbn [grip] in H.
  pose proof (t_rem a pos Ip) as RP. pose proof (t_rem a neg In_) as RN. pose proof (t_over init a st diff c HC I) as OV.
  destruct (_ || _) eqn:B.
  { injection H as <- <-. exists a. split; auto. apply Bool.orb_true_iff in B. destruct B as [B|B].
    - apply build_covered. apply Nat.eqb_eq in B. destruct (grem (lsat cn) a pos); [auto|discriminate].
    - apply build_too_long. apply OV. apply Bool.negb_true_iff. auto. }
  apply Bool.orb_false_elim in B. destruct B as [B0 B1]. apply Bool.negb_false_iff in B1.
  assert (NE : grem (lsat cn) a pos <> []) by (intros Q; rewrite Q in B0; discriminate).
  destruct (stop_early _ _ _ _ _ _ _) eqn:SE.
  { injection H as <- <-. exists a. split; auto. eapply build_limit; eauto. apply stop_early_iff. auto. }
  destruct (cn_split e h t (grem (lsat cn) a pos)) as [pg pp] eqn:S1. destruct (cn_split e h (S t) (grem (lsat cn) a neg)) as [ng np] eqn:S2.
  pose proof (t_split _ _ _ _ S1) as F1. pose proof (t_split _ _ _ _ S2) as F2.
  destruct (length pg =? 0) eqn:Z0.
  { injection H as <- <-. exists a. split; auto. eapply build_nothing; eauto. left. apply Nat.eqb_eq in Z0. destruct pg; [auto|discriminate]. }
  binv H. rename v into g. rename E into G. apply (grow_greedy (lsat cn) h cand) in G. destruct (rule_isempty g) eqn:GE.
  { injection H as <- <-. exists a. split; auto. eapply build_nothing; eauto. right. unfold rule_isempty in GE. destruct (conds g); [exact G|discriminate]. }
  assert (GN : conds g <> []) by (unfold rule_isempty in GE; destruct (conds g); discriminate).
  binv H. rename E into PR. destruct v as [s|]; [|discriminate]. binv H. rename E into U. destruct v as [st' diff'].
  rewrite !gdrop_rem in H. unfold rs_add in H, U. rewrite <- app_assoc in H, U.
  destruct (IH _ _ _ _ _ _ (inv_update _ _ _ _ _ _ _ _ _ I U) H) as (new & -> & X). exists new. split; auto.
  eapply build_add with (pg := pg) (pp := pp) (ng := ng) (np := np); eauto.
  - intros Q. apply OV in Q. congruence.
  - apply stop_no. auto.
  - intros Q. subst pg. discriminate.
  - unfold cn_prune in PR. rewrite t_off in PR. apply worth_ok; auto.
Qed.
Lemma t_grow init c t rs t' : rs_theory (length cand) init = Ok c -> ripper_grow_cn e h cn t init pos neg = Ok (rs, t') ->
  exists new, rs = init ++ new /\ build e h x cov cand bits init pos neg [] new.
Proof.
  intros HC H. destruct t_in as [Ip In_]. unfold ripper_grow_cn in H.
  rewrite ripper_loop_cn_g in H by (auto; try apply (s_env _ _ _ _ _ _ _ _ _ _ ST); try apply (s_prune0 _ _ _ _ _ _ _ _ _ _ ST); apply (s_prune1 _ _ _ _ _ _ _ _ _ _ ST)).
  eapply (t_build init c HC _ t [] None 1); [left; auto|]. rewrite app_nil_r, !grem_nil. exact H.
Qed.
Lemma t_kept rs kept q : best_subset (cn_exc cn pos neg) (length cand) rs = Ok (kept, q) -> kept_by_length bits rs kept /\ bits kept (bits_of q).
Proof.
  intros H. split.
  - pose proof H as H0. apply C37_subset_exact in H; [|intros; eapply t_pos; eauto]. destruct H as (idx & P & M). exists idx. split; auto.
    assert (K : forall i, 0 < i -> i <= length rs -> exists d, total_bits (cn_exc cn pos neg) (length cand) (firstn i rs) = Ok d).
    { unfold best_subset in H0. binv H0. exact (subset_totals _ _ _ _ _ _ _ E eq_refl). }
    revert P. apply picks_ext. intros i I. apply in_seq in I. unfold worth_keeping. split.
    + intros [->|(d & d' & D & D' & L)]; auto. right. exists (bits_of d), (bits_of d'). split; [apply (t_bits _ d); auto|]. split; [apply (t_bits _ d'); auto|auto].
    + intros [->|(b & b' & B & B' & L)]; auto. destruct i as [|i]; auto. right. destruct (K (S i)) as (d & D); [lia|lia|]. destruct (K (S (S i))) as (d' & D'); [lia|lia|].
      apply (t_bits _ d) in B; auto. apply (t_bits _ d') in B'; auto. subst b b'. eauto.
  - apply (t_bits _ q); auto. apply best_subset_run in H. tauto.
Qed.
Lemma t_stop now a b v : stop_early_opt h (map Some now) a b = Ok v -> (v = true <-> ruleset_limit h now (a + b)).
Proof.
  intros H. rewrite <- stop_early_iff. unfold stop_early_opt in H. rewrite map_length in H. unfold stop_early in *. destruct (ge_lim (length now) (h_max_rules h)) eqn:GL.
  - apply Ok_inj in H. subst v. cbn [orb]. tauto.
  - destruct (h_max_total_conds h) as [mt|] eqn:MT.
    + rewrite force_map in H. cbn [bind] in H. apply Ok_inj in H. subst v. tauto.
    + apply Ok_inj in H. subst v. cbn [ge_lim orb] in *. tauto.
Qed.
Lemma t_pass orig q0 : (0 < q0)%Q -> forall todo t i now pos1 neg1 new' t' pre,
  gopt (lsat cn) (cn_cands cn) (cn_split e h) h (cn_met cn) (total_bits (cn_exc cn pos neg) (length cand)) orig q0 t i todo (map Some now) pos1 neg1 = Ok (new', t') ->
  orig = pre ++ todo -> length pre = i -> length now = length orig -> pos1 = grem (lsat cn) pre pos -> neg1 = grem (lsat cn) pre neg ->
  exists fin, new' = map Some fin /\ pass e h x cov cand bits (bits_of q0) orig pos neg i now fin.
Proof.
  intros Q0. destruct t_in as [Ip In_]. induction todo as [|r rest IH]; intros t i now pos1 neg1 new' t' pre H O Li Ln Ep En.
  { injection H as <- <-. exists now. split; auto. rewrite app_nil_r in O. subst pre i. apply pass_end. }
  assert (Il : i < length orig) by (rewrite O, app_length; cbn; lia).
  assert (Fi : firstn i orig = pre) by (rewrite O, <- Li, firstn_app, Nat.sub_diag, firstn_all; cbn; apply app_nil_r).
  assert (Ni : nth_error orig i = Some r) by (rewrite O, nth_error_app2, <- Li, Nat.sub_diag by lia; auto).
  pose proof (t_rem pre pos Ip) as RP. pose proof (t_rem pre neg In_) as RN. rewrite <- Ep in RP. rewrite <- En in RN.
  cbn [gopt] in H. destruct (cn_split e h t pos1) as [pg pp] eqn:S1. destruct (cn_split e h (S t) neg1) as [ng np] eqn:S2.
  pose proof (t_split _ _ _ _ S1) as F1. pose proof (t_split _ _ _ _ S2) as F2.
  destruct (length pg =? 0) eqn:Z0.
  { injection H as <- <-. exists now. split; auto. apply Nat.eqb_eq in Z0. destruct pg; [|discriminate]. eapply pass_small; [rewrite Fi; exact RP|exact F1]. }
  assert (PG : pg <> []) by (intros ->; discriminate).
  binv H. rename v into stp, E into SE. apply t_stop in SE. destruct stp.
  { injection H as <- <-. exists now. split; auto. eapply pass_limit; [rewrite Fi; exact RP|rewrite Fi; exact RN|apply SE; auto]. }
  assert (PP : pp <> []).
  { pose proof (cn_sp_ok e h cn (s_env _ _ _ _ _ _ _ _ _ _ ST) (s_prune0 _ _ _ _ _ _ _ _ _ _ ST) (s_prune1 _ _ _ _ _ _ _ _ _ _ ST)) as OK.
    refine (sp_on _ _ _ OK _ _ _ _ _ t_off _ S1); [rewrite Ep; apply t_remin; auto|]. intros Z. rewrite Z in F1. destruct F1 as [F1 _].
    symmetry in F1. apply Permutation_nil in F1. apply app_eq_nil in F1. tauto. }
  assert (MT : forall i pp np r, pp <> [] -> exists q, cn_met cn i pp np r = Ok (Some q) /\ (0 <= q)%Q).
  { intros i0 pp0 np0 r0 NE0. unfold cn_met. destruct (accuracy_metric_value (length pp0) (length np0) (length (gcov (lsat cn) r0 pp0)) (length (gcov (lsat cn) r0 np0))) as (q & A1 & _ & A2 & _).
    - destruct pp0; [congruence|cbn; lia].
    - apply filter_length_le.
    - apply filter_length_le.
    - eauto. }
  binv H. rename v into g1, E into G1. binv H. rename v into p1, E into P1.
  binv H. rename v into g2, E into G2. binv H. rename v into p2, E into P2.
  binv H. rename E into D1. rename v into d1. binv H. rename E into D2. rename v into d2. binv H. rename v into new1, E into CH.
  destruct (prune_on_total (cn_met cn) MT i orig pp np g1 Il PP) as (s1 & S1'). destruct (prune_on_total (cn_met cn) MT i orig pp np g2 Il PP) as (s2 & S2').
  rewrite P1 in S1'. apply Ok_inj in S1'. subst p1. rewrite P2 in S2'. apply Ok_inj in S2'. subst p2.
  apply choose_exact in CH. destruct CH as (best & CH & EN).
  assert (EB : exists b, best = Some b) by (destruct CH as [[-> _]|[[-> _]|[-> _]]]; eauto). destruct EB as (b & ->).
  rewrite opt_some_in in EN.
  assert (EN' : new1 = map Some (with_slot now i (if existsb (fun s => rule_eqb s b) now then r else b))).
  { rewrite <- set_nth_slot by lia. rewrite <- set_nth_map, EN. f_equal. destruct (existsb _ now); auto. }
  assert (GG : forall base g, ggrow (lsat cn) (S (length ng)) (cn_cands cn) pg ng None (h_min_rule_samples h) base = Ok g -> greedy (without_max_conds h) cov cand pg ng (conds base) (conds g)).
  { intros base g Gg. apply ggrow_spec in Gg. destruct Gg as (r1 & CC & X).
    apply (gexit_greedy (lsat cn) (without_max_conds h) cand) in X. exact (chain_greedy (lsat cn) (without_max_conds h) cand _ _ _ _ _ CC X). }
  assert (CO : forall o d, (if opt_neq (Some o) r then total_bits (cn_exc cn pos neg) (length cand) (i_replaced orig i (Some o)) else Ok q0) = Ok d ->
    slot_cost bits orig i r (bits_of q0) o (bits_of d) /\ (0 < d)%Q).
  { intros o d. unfold opt_neq, slot_cost. destruct (rule_eqb o r); cbn [negb]; intros K.
    - apply Ok_inj in K. subst d. auto.
    - split; [right; split; auto; apply (t_bits _ d); auto|eapply total_pos; [intros; eapply t_pos; eauto|eauto]]. }
  destruct (CO _ _ D1) as [K1 O1]. destruct (CO _ _ D2) as [K2 O2].
  assert (CB : cheapest r s1 s2 (bits_of q0) (bits_of d1) (bits_of d2) b).
  { destruct CH as [(A1 & A2 & A3)|[(A1 & A2 & A3)|(A1 & A2 & A3)]]; injection A1 as ->.
    * left. split; auto. split; apply bits_le; auto.
    * right. left. split; auto. split; [apply bits_lt|apply bits_le]; auto.
    * right. right. split; auto. split; apply bits_lt; auto. }
  assert (STEP : forall fin, pass e h x cov cand bits (bits_of q0) orig pos neg (S i) (with_slot now i (if existsb (fun s => rule_eqb s b) now then r else b)) fin ->
    pass e h x cov cand bits (bits_of q0) orig pos neg i now fin).
  { intros fin X. eapply (pass_slot e h x cov cand bits (bits_of q0) orig pos neg i now fin r pos1 neg1 pg pp ng np (conds g1) (conds g2) s1 s2 (bits_of d1) (bits_of d2) b); auto.
    - rewrite Fi; auto.
    - rewrite Fi; auto.
    - intros Q. apply SE in Q. discriminate.
    - apply (GG (Rule_ [])); auto.
    - apply (pruned_on_ok (lsat cn) i orig); auto.
    - apply (pruned_on_ok (lsat cn) i orig); auto. }
  assert (Fi' : firstn (S i) orig = pre ++ [r]).
  { rewrite O, <- Li, firstn_app. replace (S (length pre) - length pre) with 1 by lia. rewrite firstn_all2 by lia. reflexivity. }
  destruct (length (gdrop (lsat cn) r pos1) =? 0) eqn:Z1.
  - injection H as <- <-. eexists. split; [exact EN'|]. apply STEP. apply pass_covered. rewrite Fi'. rewrite Ep, gdrop_rem in Z1. pose proof (t_rem (pre ++ [r]) pos Ip) as R1.
    apply Nat.eqb_eq in Z1. destruct (grem (lsat cn) (pre ++ [r]) pos); [auto|discriminate].
  - rewrite EN' in H. destruct (IH _ _ _ _ _ _ _ (pre ++ [r]) H) as (fin & E1 & E2).
    + rewrite <- app_assoc. exact O.
    + rewrite app_length. cbn. lia.
    + rewrite <- set_nth_slot by lia. rewrite set_nth_length. auto.
    + rewrite Ep. apply gdrop_rem.
    + rewrite En. apply gdrop_rem.
    + exists fin. split; auto.
Qed.
Lemma t_one t rs rs' t' : optimize_cn e h cn t rs pos neg = Ok (rs', t') -> one_pass e h x cov cand bits pos neg rs rs' /\ exists c, rs_theory (length cand) rs = Ok c.
Proof.
  intros H. destruct t_in as [Ip In_]. unfold optimize_cn in H. binv H. destruct v as [kept q0]. rename E into B. binv H. destruct v as [new t1]. rename E into G. binv H. rename E into F. injection H as <- <-.
  rewrite optimize_loop_cn_g in G by (auto; try apply (s_env _ _ _ _ _ _ _ _ _ _ ST); try apply (s_prune0 _ _ _ _ _ _ _ _ _ _ ST); apply (s_prune1 _ _ _ _ _ _ _ _ _ _ ST)).
  change (fun x0 => exceptions_cn cn x0 pos neg) with (cn_exc cn pos neg) in B. change (length (cn_conds cn)) with (length cand) in B.
  split; [|eapply best_sizes; eauto]. destruct (t_kept _ _ _ B) as [K1 K2]. exists kept, (bits_of q0). split; auto. split; auto.
  assert (Q0 : (0 < q0)%Q) by (apply best_subset_run in B; destruct B as (_ & B & _); eapply total_pos; [intros; eapply t_pos; eauto|eauto]).
  destruct (t_pass rs q0 Q0 rs t 0 rs pos neg new t1 [] G) as (fin & -> & P); auto; try (symmetry; apply grem_nil).
  rewrite force_map in F. apply Ok_inj in F. subst fin. exact P.
Qed.
Lemma t_passes k : forall t rs rs' t', optimize_iter (fun t r => optimize_cn e h cn t r pos neg) k t rs = Ok (rs', t') ->
  passes (one_pass e h x cov cand bits pos neg) k rs rs' /\ (0 < k -> exists c, rs_theory (length cand) rs = Ok c) /\ (k = 0 -> rs' = rs).
Proof.
  induction k as [|k IH]; intros t rs rs' t' H; cbn [optimize_iter] in H.
  { injection H as <- <-. split; [constructor|]. split; [lia|auto]. }
  binv H. destruct v as [new t1]. apply t_one in E. destruct E as [O S]. split; [|split; [auto|discriminate]].
  destruct (negb (k =? 0) && rs_eqb rs new) eqn:Q.
  - injection H as <- <-. apply Bool.andb_true_iff in Q. destruct Q as [Q1 Q2]. destruct k as [|k]; [discriminate|]. eapply passes_settled; eauto. apply equal_iff; auto.
  - apply IH in H. eapply passes_go_on; [exact O| |apply H]. apply Bool.andb_false_iff in Q. destruct Q as [Q|Q].
    + left. apply Bool.negb_false_iff, Nat.eqb_eq in Q. auto.
    + right. intros X. apply equal_iff in X. congruence.
Qed.
End T.

Lemma ripper_train_algo_cn {e h df cf pc x p n p' n'} (ST : setting e h df cf pc x p n p' n') init rs :
  frows p <> [] -> frows n <> [] -> (0 <= h_dl h)%Z -> (0 < h_prune h)%Q -> ripper_train e h true df cf pc init = Ok rs ->
  exists cn, cn_make df cf = Ok cn /\ coverage_of x (gcov (lsat cn)) /\ conditions_of x (cn_conds cn) /\
    ripper_run e h x (gcov (lsat cn)) (cn_conds cn) (rs_rules init) (labels (frows p)) (labels (frows n)) (rs_rules rs).
Proof.
  intros NP NN HA PL H. destruct (ripper_train_cn_stages ST _ _ H) as (cn & rs1 & t1 & rs2 & t2 & rs3 & t3 & rs4 & q & C & S1 & S2 & S3 & S4 & ->).
  exists cn. split; auto. split; [exact (t_cov ST cn C)|]. split; [exact (t_cand ST cn C)|]. cbn [rs_rules Ruleset_]. unfold ripper_run.
  pose proof (t_passes ST cn C NP NN PL _ _ _ _ _ S2) as (P & P1 & P0).
  assert (Z4 := best_sizes _ _ _ _ _ S4). destruct Z4 as (c3 & Z4).
  assert (S3' : ripper_grow_cn e h cn t2 rs2 (labels (frows p)) (labels (frows n)) = Ok (rs3, t3)).
  { unfold cover_remaining_cn in S3. assert (L : 1 <=? length (labels (frows p)) = true) by (unfold labels; destruct (frows p); [congruence|reflexivity]). rewrite L in S3. exact S3. }
  assert (PRE : forall t init rs t', ripper_grow_cn e h cn t init (labels (frows p)) (labels (frows n)) = Ok (rs, t') -> exists new, rs = init ++ new).
  { intros t i0 r0 t' G. destruct (st_index ST) as (cn' & C' & IX & _). assert (cn' = cn) by congruence. subst cn'. destruct (idx_in ST cn IX) as [Ip In_].
    apply ripper_grow_cn_run in G; auto; try apply (s_env _ _ _ _ _ _ _ _ _ _ ST); try apply (s_prune0 _ _ _ _ _ _ _ _ _ _ ST); try apply (s_prune1 _ _ _ _ _ _ _ _ _ _ ST).
    destruct G as (new & G & _). eauto. }
  destruct (PRE _ _ _ _ S1) as (nw & E1). destruct (PRE _ _ _ _ S3') as (mr & E3).
  assert (Z2 : exists c, rs_theory (length (cn_conds cn)) rs2 = Ok c). { rewrite E3 in Z4. apply rs_theory_app_inv in Z4. destruct Z4 as (a & b & A & _). eauto. }
  assert (Z1 : exists c, rs_theory (length (cn_conds cn)) (rs_rules init) = Ok c).
  { assert (Z : exists c, rs_theory (length (cn_conds cn)) rs1 = Ok c). { destruct (h_k h) as [|k]; [rewrite <- (P0 eq_refl); auto|apply P1; lia]. }
    destruct Z as (c & Z). rewrite E1 in Z. apply rs_theory_app_inv in Z. destruct Z as (a & b & A & _). eauto. }
  destruct Z1 as (c1 & Z1). destruct Z2 as (c2 & Z2).
  destruct (t_grow ST cn C NP NN HA PL _ _ _ _ _ Z1 S1) as (new & EQ1 & B1). destruct (t_grow ST cn C NP NN HA PL _ _ _ _ _ Z2 S3') as (more & EQ3 & B3).
  exists new, rs2, more. split; auto. split; [rewrite <- EQ1; exact P|]. split; auto. rewrite <- EQ3. exact (proj1 (t_kept ST cn C NP NN _ _ _ S4)).
Qed.
Lemma ripper_train_algo {e h df cf pc x p n p' n'} (ST : setting e h df cf pc x p n p' n') init rs :
  frows p <> [] -> frows n <> [] -> (0 <= h_dl h)%Z -> (0 < h_prune h)%Q -> ripper_train e h true df cf pc init = Ok rs ->
  exists cov cand, coverage_of x cov /\ conditions_of x cand /\ ripper_run e h x cov cand (rs_rules init) (labels (frows p)) (labels (frows n)) (rs_rules rs).
Proof. intros NP NN HA PL H. destruct (ripper_train_algo_cn ST _ _ NP NN HA PL H) as (cn & _ & A & B & R). eauto 6. Qed.
