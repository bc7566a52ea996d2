(** * Prop_Learn.v : choosing, growing and pruning a rule (C22, C23, C24, C33) *)
From Verif Require Import LearnFacts Demo LearnSpec.
From Coq Require Import Reals.
Open Scope nat_scope.

Lemma gain_by_cn cn r c pos neg : incl pos (cn_all cn) -> incl neg (cn_all cn) ->
  gain_by (cn_rule_covers cn) r c pos neg = rgain (lsat cn) r c pos neg.
Proof. intros. unfold gain_by, rgain. rewrite !cn_rule_covers_g by auto. reflexivity. Qed.
Lemma gain_by_df cols r c pos neg : gain_by (rcov cols) r c pos neg = rgain (rsat cols) r c pos neg.
Proof. reflexivity. Qed.
Lemma grown_by_cn cn cand r0 ds pos neg : incl pos (cn_all cn) -> incl neg (cn_all cn) ->
  added_ok (lsat cn) cand r0 ds pos neg -> grown_by (cn_rule_covers cn) cand r0 ds pos neg.
Proof. intros P N H a d b E. rewrite !cn_rule_covers_g by auto. apply (H a d b E). Qed.

(** C22 *)
Theorem C22_best_rule_successor_cn : forall cn r pos neg, incl pos (cn_all cn) -> incl neg (cn_all cn) ->
  match best_rule_successor_cn cn r pos neg with
  | Some s => best_extension (cn_rule_covers cn) (cn_conds cn) r pos neg s
  | None => no_gain (cn_rule_covers cn) (cn_conds cn) r pos neg
  end.
Proof.
  intros cn r pos neg P N. rewrite best_rule_successor_cn_g by auto.
  pose proof (gsucc_spec (lsat cn) (cn_cands cn) r pos neg) as H.
  destruct (gsucc (lsat cn) (cn_cands cn) r pos neg) as [s|].
  - destruct H as (a & c & b & H1 & H2 & H3 & H4 & H5). exists a, c, b. unfold cn_cands in H1.
    rewrite gain_by_cn by auto. repeat split; auto; intros d D; rewrite gain_by_cn by auto; auto.
  - intros d D. rewrite gain_by_cn by auto. auto.
Qed.
Print Assumptions C22_best_rule_successor_cn.
(** the DataFrame engine: candidates are the possible conditions not yet in the rule *)
Theorem C22_best_successor : forall cols r possible pos neg,
  let cand := filter (fun c => negb (existsb (fun d => cond_eqb d c) (conds r))) possible in
  match best_successor cols r possible pos neg with
  | Some s => best_extension (rcov cols) cand r pos neg s
  | None => no_gain (rcov cols) possible r pos neg
  end.
Proof.
  intros cols r possible pos neg cand. rewrite best_successor_g.
  pose proof (gsucc_spec (rsat cols) (df_cands possible) r pos neg) as H.
  destruct (gsucc (rsat cols) (df_cands possible) r pos neg) as [s|] eqn:G.
  - exact H.
  - intros d D. rewrite gain_by_df. destruct (df_cands_other possible r d D) as [K|(e & K1 & K2)]; auto.
    rewrite rgain_eq, <- gain_of_1. apply gain_le; auto using ggain_pos; [reflexivity|].
    unfold ggain. rewrite !(repeat_same (rsat cols) (rsat_compat cols) (conds r) d e) by auto.
    rewrite !(gcov_conds (rsat cols) (Rule_ (conds r)) r) by auto. apply gain2_same.
Qed.
Print Assumptions C22_best_successor.
(** the coverage these gains count is that of the specification *)
Theorem C22_rcov_exact : forall fr r, good_frame fr -> features_present fr [r] ->
  picks (fun rw => sat_rule (fcols fr) rw r) (frows fr) (rcov (fcols fr) r (frows fr)) /\
  rule_covers r fr = Ok (with_rows fr (rcov (fcols fr) r (frows fr))).
Proof.
  intros fr r [W D] FP.
  assert (E : forall rw, In rw (frows fr) -> (row_sat (fcols fr) r rw = true <-> sat_rule (fcols fr) rw r)).
  { intros rw _. unfold sat_rule. rewrite <- conds_sat_iff by auto. reflexivity. }
  split; [apply picks_filter; exact E|].
  rewrite rule_covers_eq. assert (conds_present fr (conds r) = true) as ->; auto.
  apply present_conds with [r]; [exact FP|left; auto].
Qed.
Print Assumptions C22_rcov_exact.
Example C22_nonvacuous : exists cn, cn_make demo (s_ "temp") = Ok cn /\
  best_rule_successor_cn cn (Rule_ []) [10] [11; 12] = Some (Rule_ [c_ "wind" "weak"]).
Proof. eexists; split; vm_compute; reflexivity. Qed.

(** C23 *)
Theorem C23_grow_rule_cn_terminates : forall cn pos neg mc ms r, incl pos (cn_all cn) -> incl neg (cn_all cn) ->
  exists r', grow_rule_cn cn pos neg mc ms r = Ok r'.
Proof. intros. rewrite grow_rule_cn_g by auto. apply ggrow_total0. Qed.
Print Assumptions C23_grow_rule_cn_terminates.
Theorem C23_grow_rule_terminates : forall cols possible pos neg mc ms r,
  exists r', grow_rule cols possible pos neg mc ms r = Ok r'.
Proof. intros. rewrite grow_rule_g. apply ggrow_total0. Qed.
Print Assumptions C23_grow_rule_terminates.
Theorem C23_grow_rule_cn : forall cn pos neg mc r r', incl pos (cn_all cn) -> incl neg (cn_all cn) ->
  grow_rule_cn cn pos neg mc None r = Ok r' ->
  (exists ds, conds r' = conds r ++ ds /\ grown_by (cn_rule_covers cn) (cn_conds cn) (conds r) ds pos neg) /\
  (cn_rule_covers cn r' neg = [] \/ (exists m, mc = Some m /\ (m <= Z.of_nat (length (conds r')))%Z) \/
   no_gain (cn_rule_covers cn) (cn_conds cn) r' pos neg).
Proof.
  intros cn pos neg mc r r' P N H. rewrite grow_rule_cn_g in H by auto.
  apply (grow_summary (lsat cn) (lsat_eqb cn) _ (cn_conds cn)) in H; [|apply cn_cands_incl|apply cn_cands_other].
  destruct H as [(ds & D1 & D2) H]. split.
  - exists ds. split; auto. apply grown_by_cn; auto.
  - rewrite cn_rule_covers_g by auto. destruct H as [H|[H|H]]; auto. right; right. intros d D. rewrite gain_by_cn by auto. auto.
Qed.
Print Assumptions C23_grow_rule_cn.
Theorem C23_grow_rule : forall cols possible pos neg mc r r',
  grow_rule cols possible pos neg mc None r = Ok r' ->
  (exists ds, conds r' = conds r ++ ds /\ grown_by (rcov cols) possible (conds r) ds pos neg) /\
  (rcov cols r' neg = [] \/ (exists m, mc = Some m /\ (m <= Z.of_nat (length (conds r')))%Z) \/
   no_gain (rcov cols) possible r' pos neg).
Proof.
  intros cols possible pos neg mc r r' H. rewrite grow_rule_g in H.
  apply (grow_summary (rsat cols) (rsat_compat cols) _ possible) in H; [|apply df_cands_incl|apply df_cands_other].
  exact H.
Qed.
Print Assumptions C23_grow_rule.
(** with min_rule_samples the last condition may be dropped: a prefix of such an extension *)
Theorem C23_grow_rule_cn_min_samples : forall cn pos neg mc ms r r', incl pos (cn_all cn) -> incl neg (cn_all cn) ->
  grow_rule_cn cn pos neg mc ms r = Ok r' ->
  exists ds, prefix (conds r') (conds r ++ ds) /\ grown_by (cn_rule_covers cn) (cn_conds cn) (conds r) ds pos neg.
Proof.
  intros cn pos neg mc ms r r' P N H. rewrite grow_rule_cn_g in H by auto.
  apply (grow_summary_ms (lsat cn) (lsat_eqb cn) _ (cn_conds cn)) in H; [|apply cn_cands_incl].
  destruct H as (ds & D1 & D2). exists ds. split; auto. apply grown_by_cn; auto.
Qed.
Print Assumptions C23_grow_rule_cn_min_samples.
Example C23_nonvacuous : exists cn, cn_make demo (s_ "temp") = Ok cn /\
  grow_rule_cn cn [12] [10; 11] None None (Rule_ []) = Ok (Rule_ [c_ "outlook" "sunny"; c_ "wind" "strong"]).
Proof. eexists; split; vm_compute; reflexivity. Qed.

(** C24. The metric is any function that has a value on the non-empty prefixes of the rule. *)
Theorem C24_prune_rule : forall metric r (v : list cond -> Q), conds r <> [] ->
  (forall p, prefix p (conds r) -> p <> [] -> metric (set_conds r p) = Ok (Some (v p))) ->
  exists b, prune_rule metric r = Ok (Some (set_conds r b)) /\ prefix b (conds r) /\ b <> [] /\
    ((exists p, prefix p (conds r) /\ p <> [] /\ (0 <= v p)%Q) -> best_prefix v (conds r) b) /\
    ((forall p, prefix p (conds r) -> p <> [] -> (v p < 0)%Q) -> b = conds r).
Proof. exact prune_rule_spec. Qed.
Print Assumptions C24_prune_rule.
Theorem C24_prune_empty : forall metric r, conds r = [] -> prune_rule metric r = Ok (Some r).
Proof. exact prune_rule_empty. Qed.
Print Assumptions C24_prune_empty.
(** pruning evaluated on the ruleset that contains the rule at position i (RIPPER's optimisation stage) *)
Theorem C24_prune_rule_on_ruleset : forall metric i rs r (v : list cond -> Q), conds r <> [] -> nth_error rs i = Some r ->
  (forall p, prefix p (conds r) -> p <> [] -> metric (set_conds r p) = Ok (Some (v p))) ->
  ((exists p, prefix p (conds r) /\ p <> [] /\ (0 <= v p)%Q) ->
     exists b, prune_rule_on metric i rs r = Ok (Some (set_conds r b)) /\ best_prefix v (conds r) b) /\
  ((forall p, prefix p (conds r) -> p <> [] -> (v p < 0)%Q) -> prune_rule_on metric i rs r = Err UnboundLocalError).
Proof. exact prune_rule_on_spec. Qed.
Print Assumptions C24_prune_rule_on_ruleset.
(** IREP's metric is (p + (N - n)) / (P + N); RIPPER's is (p - n + 1) / (p + n + 1) *)
Theorem C24_irep_metric : forall P N p n, P + N <> 0 -> p <= P -> n <= N ->
  exists q, irep_metric P N p n = Ok (Some q) /\ (q == qn (p + (N - n)) / qn (P + N))%Q /\ (0 <= q <= 1)%Q.
Proof. exact irep_metric_value. Qed.
Print Assumptions C24_irep_metric.
Theorem C24_ripper_metric : forall p n, exists q, ripper_grow_metric p n = Ok (Some q) /\
  (q == (qn (p + 1) - qn n) / qn (p + n + 1))%Q /\ (-1 < q <= 1)%Q.
Proof.
  intros p n. eexists. split; [reflexivity|].
  assert (D : (0 < qn (p + n + 1))%Q) by (apply qn_pos; lia).
  assert (X : (zq (Z.of_nat p - Z.of_nat n + 1) == qn (p + 1) - qn n)%Q).
  { unfold zq, qn. unfold Qminus. rewrite <- inject_Z_opp, <- inject_Z_plus. replace (Z.of_nat p - Z.of_nat n + 1)%Z with (Z.of_nat (p + 1) + - Z.of_nat n)%Z by lia. reflexivity. }
  rewrite X. split; [reflexivity|]. rewrite !qn_plus in *. pose proof (qn_nonneg p). pose proof (qn_nonneg n).
  assert (qn 1 == 1)%Q by reflexivity. split.
  - apply Qlt_shift_div_l; auto. Lqa.lra.
  - apply Qle_shift_div_r; auto. Lqa.lra.
Qed.
Print Assumptions C24_ripper_metric.
Example C24_nonvacuous :
  let r := Rule_ [c_ "a" "1"; c_ "b" "2"; c_ "c" "3"] in
  let v := fun p : list cond => match p with [_] => 1#2 | [_; _] => 3#4 | _ => 3#4 end%Q in
  prune_rule (fun s => Ok (Some (v (conds s)))) r = Ok (Some (Rule_ [c_ "a" "1"; c_ "b" "2"])).
Proof. reflexivity. Qed.

(** C33: the claim fails because the loop is left without re-checking the limit once no negative is covered *)
Theorem C33_min_rule_samples_partial : forall cn pos neg mc m r', incl pos (cn_all cn) -> incl neg (cn_all cn) ->
  grow_rule_cn cn pos neg mc (Some m) (Rule_ []) = Ok r' ->
  (m <= Z.of_nat (length (cn_rule_covers cn r' pos) + length (cn_rule_covers cn r' neg)))%Z \/
  cn_rule_covers cn r' neg = [] \/ conds r' = [].
Proof.
  intros cn pos neg mc m r' P N H. rewrite grow_rule_cn_g in H by auto. apply grow_min_samples in H.
  rewrite !cn_rule_covers_g by auto. destruct H as [H|[H|[s H]]]; auto. right; right.
  cbn in H. symmetry in H. apply app_eq_nil in H. tauto.
Qed.
Print Assumptions C33_min_rule_samples_partial.
Theorem C33_min_rule_samples_df_partial : forall cols possible pos neg mc m r',
  grow_rule cols possible pos neg mc (Some m) (Rule_ []) = Ok r' ->
  (m <= Z.of_nat (length (rcov cols r' pos) + length (rcov cols r' neg)))%Z \/ rcov cols r' neg = [] \/ conds r' = [].
Proof.
  intros cols possible pos neg mc m r' H. rewrite grow_rule_g in H. apply grow_min_samples in H.
  destruct H as [H|[H|[s H]]]; auto. right; right. cbn in H. symmetry in H. apply app_eq_nil in H. tauto.
Qed.
Print Assumptions C33_min_rule_samples_df_partial.
(** a rule covering 1 example is returned although 3 were required *)
Theorem C33_min_rule_samples_refuted : exists fr cf cn pos neg r', good_frame fr /\ distinct_labels fr /\ cn_make fr cf = Ok cn /\
  incl pos (labels (frows fr)) /\ incl neg (labels (frows fr)) /\
  grow_rule_cn cn pos neg None (Some 3%Z) (Rule_ []) = Ok r' /\ conds r' <> [] /\
  length (cn_rule_covers cn r' pos) + length (cn_rule_covers cn r' neg) = 1.
Proof.
  exists demo, (s_ "temp"). eexists. exists [10], [11; 12]. eexists.
  split; [exact demo_good|]. split; [exact demo_labels|]. split; [vm_compute; reflexivity|].
  split; [intros i [<-|[]]; cbn; auto|]. split; [intros i [<-|[<-|[]]]; cbn; auto|].
  split; [vm_compute; reflexivity|]. split; [discriminate|vm_compute; reflexivity].
Qed.
Print Assumptions C33_min_rule_samples_refuted.
