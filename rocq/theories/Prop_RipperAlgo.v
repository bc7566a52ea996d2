(** * Prop_RipperAlgo.v : RIPPER training with the default engine is the RIPPER algorithm (C92). The algorithm is the relation [ripper_run] of RipperAlgoSpec. *)
From Verif Require Import RipperAlgo Prop_Algo Prop_Mdl Prop_Helpers Prop_Irep Prop_Fit Prop_FitModel Prop_Ripper FitRun ClfSpec Demo.
From Coq Require Import Lqa Reals.
Open Scope nat_scope.

Theorem C92_ripper_training : forall e h df cf pc x p n p' n' init rs,
  setting e h df cf pc x p n p' n' -> frows p <> [] -> frows n <> [] -> (0 <= h_dl h)%Z -> (0 < h_prune h)%Q ->
  ripper_train e h true df cf pc init = Ok rs ->
  exists pos neg cov cand, examples_of_class df cf pc pos neg /\ coverage_of x cov /\ conditions_of x cand /\
    ripper_run e h x cov cand (rs_rules init) pos neg (rs_rules rs).
Proof.
  intros e h df cf pc x p n p' n' init rs ST NP NN HA PL H. destruct (ripper_train_algo ST _ _ NP NN HA PL H) as (cov & cand & A & B & R).
  exists (labels (frows p)), (labels (frows n)), cov, cand. split; [apply (st_examples ST)|]. auto.
Qed.
Print Assumptions C92_ripper_training.

(** The whole of RIPPER.fit, from any initial model, on data with positive and negative examples: the rules of the fitted classifier are, up to their
    statistics, those of a run of the algorithm on the training table as the fitted discretiser sees it (without its class column), without
    repetitions and trimmed to max_total_conds *)
Theorem C92_fit_is_ripper : forall w cl X y cf pc names init kw f vs ix cl' rs x0,
  c_alg cl = RIPPER_ -> world_ok w -> training_input X y cf names f vs ix -> NoDup ix ->
  let h := hyper_of cl kw in
  (0 < h_prune h)%Q -> (h_prune h <= 1)%Q -> (0 <= h_dl h)%Z -> (h_nbins h = None \/ exists n, h_nbins h = Some n /\ (0 <= n)%Z) ->
  model_means init x0 -> fit w cl X y cf pc names init true kw = (cl', Ok tt) -> c_rs cl' = Some rs ->
  exists bt table binned_table p x pos neg, c_bt cl' = Some bt /\ c_pc cl' = Some p /\ training_df X y f names = Ok table /\ transform bt table = Ok binned_table /\
    drop_col binned_table f = Ok x /\ examples_of_class binned_table f p pos neg /\
    (pos <> [] -> neg <> [] -> exists cov cand fin once kept, coverage_of x cov /\ conditions_of x cand /\
      ripper_run (w_env w) h x cov cand (rs_rules x0) pos neg fin /\
      first_occurrences (fun a b => rule_hash (e_hash (w_env w)) a = rule_hash (e_hash (w_env w)) b /\ rule_eqb a b = true) [] fin once /\
      trimmed_to (h_max_total_conds h) once kept /\ map conds (rs_rules rs) = map conds kept).
Proof.
  intros w cl X y cf pc names init kw f vs ix cl' rs x0 AL WO T ND h P0 P1 HA NB MM H RS.
  assert (P0' : (0 <= h_prune h)%Q) by Lqa.lra.
  destruct (fit_trained _ _ _ _ _ _ _ _ _ _ _ _ _ _ WO T ND P0' P1 NB H) as (df & df0 & p & bt & xi & x1 & x2 & xx & pp & nn & p' & n' & FT & G & L & HC & TD & TR & ST).
  destruct FT as [FP FI FTR FF FR FC FPC FB FS FA FH FCl FFe]. rewrite FR in RS. injection RS as <-. apply means_from in MM. rewrite FI in MM. injection MM as ->.
  rewrite AL in FTR. cbn [train] in FTR.
  exists bt, df0, df, p, xx, (labels (frows pp)), (labels (frows nn)). do 4 (split; [auto|]). split; [apply (s_x _ _ _ _ _ _ _ _ _ _ ST)|]. split; [apply (st_examples ST)|].
  intros NP NN. destruct (ripper_train_algo ST x0 x1) as (cov & cand & CO & CA & RU); auto; [intros Q; rewrite Q in NP; apply NP; reflexivity|intros Q; rewrite Q in NN; apply NN; reflexivity|].
  exists cov, cand, (rs_rules x1), (remove_duplicates (e_hash (w_env w)) (rs_rules x1)), (FitRun.kept w h (rs_rules x1)).
  do 3 (split; [auto|]). split; [apply remove_duplicates_first|]. split; [apply trim_trimmed|].
  apply finish_conds in FF. clear -FF. unfold h. induction FF as [|a b l l' E F IH]; [reflexivity|]. cbn [map]. rewrite IH, E. reflexivity.
Qed.
Print Assumptions C92_fit_is_ripper.

(** What the relation says: a run that ends without rules had none to start the last stage from, and stopped there because of a limit or because nothing
    could be grown from a split of all examples *)
Theorem C92_run_empty : forall e h x cov cand init pos neg, pos <> [] -> ripper_run e h x cov cand init pos neg [] ->
  ruleset_limit h [] (length pos + length neg) \/
  exists pg pp ng np, split_for e h pos pg pp /\ split_for e h neg ng np /\ (pg = [] \/ greedy h cov cand pg ng [] []).
Proof.
  intros e h x cov cand init pos neg NP (new & opt & more & _ & _ & B & K). destruct K as (idx & P & M).
  assert (N : idx = []) by (destruct idx; [auto|discriminate]). subst idx.
  assert (O : opt ++ more = []).
  { destruct (opt ++ more) as [|r l]; auto. cbn [length seq] in P. inversion P; subst; tauto. }
  apply app_eq_nil in O. destruct O as [-> ->].
  assert (ALL : forall l m, picks (uncovered_label x []) l m -> m = l).
  { intros l. induction l as [|a l IH]; intros m H; inversion H; subst; auto; [f_equal; auto|]. exfalso. apply H2. intros r []. }
  assert (GROW : forall u v, build e h x cov cand (bits_on x (length cand) pos neg) [] pos neg u v -> length u <= length v) by (induction 1; auto; rewrite app_length in *; cbn in *; lia).
  inversion B as [a H|a H|a rp rn H1 H2 H3|a rp rn pg pp ng np H1 H2 H3 H4 H5 H6|a rp rn pg pp ng np g r fin H1 H2 H3 H4 H5 H6 H7 H8 H9 H10 H11 H12]; subst.
  - apply ALL in H. congruence.
  - apply no_too_long_nil in H. destruct H.
  - apply ALL in H1. apply ALL in H2. subst. auto.
  - apply ALL in H1. apply ALL in H2. subst. right. exists pg, pp, ng, np. auto.
  - apply GROW in H12. cbn in H12. lia.
Qed.
Print Assumptions C92_run_empty.
(** the first of the rules the last stage ends with is always kept *)
Theorem C92_first_kept : forall bits r rs kept, kept_by_length bits (r :: rs) kept -> exists k, kept = r :: k.
Proof.
  intros bits r rs kept (idx & P & M). cbn [length seq] in P. inversion P; subst; [|tauto]. destruct kept as [|s k]; [discriminate|]. cbn [map nth_error] in M. injection M as -> M. eauto.
Qed.
Print Assumptions C92_first_kept.

(** Non-vacuity: training on [seven] ends, on data that meets the hypotheses, with a pass of the optimisation carried out *)
Example C92_nonvacuous : exists rs x cov cand pos neg, ripper_train env0 (hyp_dl 1) true seven (s_ "class") (s_ "p") (Ruleset_ []) = Ok rs /\
  1 < length (rs_rules rs) /\ h_k (hyp_dl 1) = 2 /\ conditions_of x cand /\ length cand = 5 /\ length pos = 5 /\ length neg = 2 /\ ripper_run env0 (hyp_dl 1) x cov cand [] pos neg (rs_rules rs).
Proof.
  destruct (seven_setting 1) as (x & p & n & p' & n' & ST & Ep & En).
  destruct (ripper_train env0 (hyp_dl 1) true seven (s_ "class") (s_ "p") (Ruleset_ [])) as [rs|er] eqn:T; [|vm_compute in T; discriminate].
  assert (NP : frows p <> []) by (intros C; rewrite C in Ep; discriminate Ep). assert (NN : frows n <> []) by (intros C; rewrite C in En; discriminate En).
  destruct (ripper_train_algo_cn ST _ _ NP NN ltac:(discriminate) ltac:(reflexivity) T) as (cn & C & A & B & R).
  exists rs, x, (gcov (lsat cn)), (cn_conds cn), (labels (frows p)), (labels (frows n)). split; auto.
  split; [vm_compute in T; injection T as <-; cbn; lia|]. split; [reflexivity|]. split; auto. vm_compute in C. injection C as <-. rewrite Ep, En in *. split; [reflexivity|]. auto.
Qed.
