(** * Prop_Tally.v : RIPPER training with cn_optimize=False is the algorithm [tally_run] of TallySpec (C101) *)
From Verif Require Import TallyAlgo Prop_Algo Prop_Mdl Prop_Helpers Prop_Irep Prop_Fit Prop_FitModel Prop_Ripper FitRun ClfSpec Demo.
From Coq Require Import Lqa Reals.
Open Scope nat_scope.

Theorem C101_ripper_df_training : forall e h df cf pc x p n p' n' init rs,
  setting e h df cf pc x p n p' n' -> (0 <= h_dl h)%Z -> (0 < h_prune h)%Q -> ripper_train e h false df cf pc init = Ok rs ->
  exists pos neg cov, examples_of_class df cf pc pos neg /\ coverage_of x cov /\
    tally_run e h x cov (old_possible init) (rs_rules init) pos neg (rs_rules rs).
Proof.
  intros e h df cf pc x p n p' n' init rs ST HA PL H. exists (labels (frows p)), (labels (frows n)), (gcov (xsat x)).
  split; [apply (st_examples ST)|]. split; [apply (cov_ok ST)|]. exact (ripper_train_tally ST _ _ HA PL H).
Qed.
Print Assumptions C101_ripper_df_training.

(** The whole of RIPPER.fit with cn_optimize=False, from any initial model *)
Theorem C101_fit_is_ripper : forall w cl X y cf pc names init kw f vs ix cl' rs x0,
  c_alg cl = RIPPER_ -> world_ok w -> training_input X y cf names f vs ix -> NoDup ix ->
  let h := hyper_of cl kw in
  (0 < h_prune h)%Q -> (h_prune h <= 1)%Q -> (0 <= h_dl h)%Z -> (h_nbins h = None \/ exists n, h_nbins h = Some n /\ (0 <= n)%Z) ->
  model_means init x0 -> fit w cl X y cf pc names init false kw = (cl', Ok tt) -> c_rs cl' = Some rs ->
  exists bt table binned_table p x pos neg cov fin once kept, c_bt cl' = Some bt /\ c_pc cl' = Some p /\ training_df X y f names = Ok table /\ transform bt table = Ok binned_table /\
    drop_col binned_table f = Ok x /\ examples_of_class binned_table f p pos neg /\ coverage_of x cov /\
    tally_run (w_env w) h x cov (old_possible x0) (rs_rules x0) pos neg fin /\
    first_occurrences (fun a b => rule_hash (e_hash (w_env w)) a = rule_hash (e_hash (w_env w)) b /\ rule_eqb a b = true) [] fin once /\
    trimmed_to (h_max_total_conds h) once kept /\ map conds (rs_rules rs) = map conds kept.
Proof.
  intros w cl X y cf pc names init kw f vs ix cl' rs x0 AL WO T ND h P0 P1 HA NB MM H RS.
  assert (P0' : (0 <= h_prune h)%Q) by Lqa.lra.
  destruct (fit_trained _ _ _ _ _ _ _ _ _ _ _ _ _ _ WO T ND P0' P1 NB H) as (df & df0 & p & bt & xi & x1 & x2 & xx & pp & nn & p' & n' & FT & G & L & HC & TD & TR & ST).
  destruct FT as [FP FI FTR FF FR FC FPC FB FS FA FH FCl FFe]. rewrite FR in RS. injection RS as <-. apply means_from in MM. rewrite FI in MM. injection MM as ->.
  rewrite AL in FTR. cbn [train] in FTR.
  exists bt, df0, df, p, xx, (labels (frows pp)), (labels (frows nn)), (gcov (xsat xx)), (rs_rules x1), (remove_duplicates (e_hash (w_env w)) (rs_rules x1)), (FitRun.kept w h (rs_rules x1)).
  do 4 (split; [auto|]). split; [apply (s_x _ _ _ _ _ _ _ _ _ _ ST)|]. split; [apply (st_examples ST)|]. split; [apply (cov_ok ST)|].
  split; [exact (ripper_train_tally ST _ _ HA P0 FTR)|].
  split; [apply remove_duplicates_first|]. split; [apply trim_trimmed|].
  apply finish_conds in FF. clear -FF. unfold h. induction FF as [|a b l l' E F IH]; [reflexivity|]. cbn [map]. rewrite IH, E. reflexivity.
Qed.
Print Assumptions C101_fit_is_ripper.

(** The counts and the bits are those of the algorithm exactly where no example is covered by two of the rules *)
Lemma picks_or {A} (P Q R : A -> Prop) l a b : picks P l a -> picks Q l b -> (forall i, In i l -> (R i <-> P i \/ Q i)) -> (forall i, In i l -> ~ (P i /\ Q i)) ->
  exists c, picks R l c /\ length c = length a + length b.
Proof.
  intros H. revert b. induction H as [|i l a Pi H IH|i l a Pi H IH]; intros b K RO D; inversion K; subst.
  - exists []. split; [constructor|reflexivity].
  - exfalso. apply (D i); cbn; auto.
  - destruct (IH b) as (c & C & L); auto; [intros j J; apply RO; cbn; auto|intros j J; apply D; cbn; auto|]. exists (i :: c). split; [constructor; auto; apply RO; cbn; auto|cbn; lia].
  - match goal with X : picks Q l ?m |- _ => destruct (IH m) as (c & C & L); auto; [intros j J; apply RO; cbn; auto|intros j J; apply D; cbn; auto|] end.
    exists (i :: c). split; [constructor; auto; apply RO; cbn; auto|cbn; lia].
  - destruct (IH b) as (c & C & L); auto; [intros j J; apply RO; cbn; auto|intros j J; apply D; cbn; auto|]. exists c. split; auto. constructor; auto. intros X. apply RO in X; [tauto|cbn; auto].
Qed.
Definition apart (x : frame) (rs : list rule) (l : list nat) : Prop := ForallOrdPairs (fun r s => forall i, In i l -> ~ (covers_label x r i /\ covers_label x s i)) rs.
Theorem C101_counts : forall x cov rs l m, coverage_of x cov -> incl l (map rlab (frows x)) -> apart x rs l ->
  picks (covered_label x rs) l m -> tally_of cov rs l = length m.
Proof.
  intros x cov rs l m CO I AP M.
  assert (K : exists c, picks (covered_label x rs) l c /\ length c = list_sum (map (fun r => length (cov r l)) rs)).
  { clear M. induction AP as [|r rs F AP IH].
    - exists []. split; [|reflexivity]. clear -l. induction l; constructor; auto. intros (r & [] & _).
    - destruct IH as (c & C & L). destruct (picks_or (covers_label x r) (covered_label x rs) (covered_label x (r :: rs)) l _ _ (CO r l I) C) as (d & D & E).
      + intros i Ii. split; [intros (s & [->|S] & Y); [auto|right; exists s; auto]|intros [Y|(s & S & Y)]; [exists r; cbn; auto|exists s; cbn; auto]].
      + intros i Ii [Y (s & S & Z)]. rewrite Forall_forall in F. apply (F s S i Ii); auto.
      + exists d. split; auto. cbn [map]. rewrite E, L. reflexivity. }
  destruct K as (c & C & L). assert (c = m) as -> by (eapply picks_unique; eauto). unfold tally_of. destruct (existsb _ rs) eqn:U; [|auto].
  apply existsb_exists in U. destruct U as (r & R & U). apply Nat.eqb_eq in U.
  assert (ALL : forall i, In i l -> covered_label x rs i).
  { intros i Ii. exists r. split; auto. apply I in Ii. apply in_map_iff in Ii. destruct Ii as (rw & <- & Ii). exists rw. split; auto. split; auto.
    intros c Ic. destruct (conds r); [destruct Ic|discriminate]. }
  clear -C ALL. induction C; auto; cbn [length]; [f_equal; apply IHC; intros; apply ALL; cbn; auto|]. exfalso. apply H. apply ALL. cbn; auto.
Qed.
Print Assumptions C101_counts.
Theorem C101_bits : forall x cov n pos neg rs b, coverage_of x cov -> incl pos (map rlab (frows x)) -> incl neg (map rlab (frows x)) ->
  apart x rs pos -> apart x rs neg -> bits_on x n pos neg rs b -> tally_bits cov n pos neg rs b.
Proof.
  intros x cov n pos neg rs b CO Ip In_ Ap An (tp & fp & T & F & ->). unfold tally_bits. rewrite (C101_counts x cov rs pos tp), (C101_counts x cov rs neg fp) by auto.
  assert (L1 : length tp <= length pos) by (clear -T; induction T; cbn; lia). assert (L2 : length fp <= length neg) by (clear -F; induction F; cbn; lia).
  unfold ruleset_bits. rewrite <- !Nat2Z.inj_add, <- !Nat2Z.inj_sub by lia. rewrite !nCr_binom, <- !INR_IZR_INZ. reflexivity.
Qed.
Print Assumptions C101_bits.

(** Elsewhere they are not: an example that two rules cover is counted twice *)
Definition twice : frame := mkframe [s_ "a"; s_ "b"] [mkrow 0 [s_ "1"; s_ "1"]; mkrow 1 [s_ "1"; s_ "2"]].
Example C101_counted_twice : tally_of (gcov (xsat twice)) [Rule_ [c_ "a" "1"]; Rule_ [c_ "b" "1"]] [0; 1] = 3 /\ coverage_of twice (gcov (xsat twice)).
Proof.
  split; [reflexivity|]. intros r l I. apply cov_picks; auto.
  - apply (good_frameb_ok twice). reflexivity.
  - repeat constructor; cbn; intuition discriminate.
Qed.

(** Non-vacuity: a training with two passes of the optimisation that ends with two rules *)
Definition nine : frame := mkframe [s_ "a"; s_ "b"; s_ "class"]
  [mkrow 0 [s_ "3"; s_ "1"; s_ "n"]; mkrow 1 [s_ "2"; s_ "1"; s_ "p"]; mkrow 2 [s_ "3"; s_ "2"; s_ "p"]; mkrow 3 [s_ "2"; s_ "3"; s_ "n"]; mkrow 4 [s_ "1"; s_ "2"; s_ "n"];
   mkrow 5 [s_ "3"; s_ "1"; s_ "p"]; mkrow 6 [s_ "2"; s_ "1"; s_ "p"]; mkrow 7 [s_ "3"; s_ "3"; s_ "n"]; mkrow 8 [s_ "3"; s_ "1"; s_ "p"]].
Lemma nine_setting a : exists x p n p' n', setting env0 (hyp_dl a) nine (s_ "class") (s_ "p") x p n p' n' /\ labels (frows p) = [1;2;5;6;8] /\ labels (frows n) = [0;3;4;7].
Proof.
  eexists _, _, _, _, _. split.
  - constructor; [apply env0_ok|discriminate|discriminate|apply good_frameb_ok; reflexivity| |reflexivity|reflexivity|reflexivity|reflexivity].
    unfold distinct_labels, nine. cbn. repeat constructor; cbn; intuition discriminate.
  - split; reflexivity.
Qed.
Example C101_nonvacuous : exists rs x cov, ripper_train env0 (hyp_dl 1) false nine (s_ "class") (s_ "p") (Ruleset_ []) = Ok rs /\
  map conds (rs_rules rs) = [[c_ "b" "2"]; [c_ "b" "1"]] /\ h_k (hyp_dl 1) = 2 /\ tally_run env0 (hyp_dl 1) x cov [] [] [1;2;5;6;8] [0;3;4;7] (rs_rules rs).
Proof.
  destruct (nine_setting 1) as (x & p & n & p' & n' & ST & Ep & En).
  destruct (ripper_train env0 (hyp_dl 1) false nine (s_ "class") (s_ "p") (Ruleset_ [])) as [rs|er] eqn:T; [|vm_compute in T; discriminate].
  pose proof (ripper_train_tally ST _ _ ltac:(discriminate) ltac:(reflexivity) T) as R. rewrite Ep, En in R.
  exists rs, x, (gcov (xsat x)). split; auto.
  split; [vm_compute in T; injection T as <-; reflexivity|]. split; [reflexivity|]. exact R.
Qed.
