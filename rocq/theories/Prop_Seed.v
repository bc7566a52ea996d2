(** * Prop_Seed.v : C105 -- without pruning the random state is irrelevant *)
From Verif Require Import PrepSpec ExtraSpec OrderSpec PrepFacts TrainView ClassFacts FitRun ClfFacts Prop_Prep Prop_Fit Prop_FitModel Prop_Extra Prop_Order Demo Prop_Helpers.
Open Scope nat_scope.

Lemma seq_nth s n i j : nth_error (seq s n) i = Some j -> j = s + i.
Proof. revert s i. induction n as [|n IH]; intros s [|i] H; try discriminate; cbn in H; [injection H as <-; lia|]. rewrite (IH _ _ H). lia. Qed.
Lemma reordered_id f fr vs : reordered f fr vs fr vs (seq 0 (length (frows fr))).
Proof.
  constructor; auto.
  - intros i j r r' g v N R R' _. apply seq_nth in N. cbn in N. subst j. rewrite R in R'. injection R' as <-. tauto.
  - intros i j N. apply seq_nth in N. cbn in N. subst j. reflexivity.
Qed.
(** naming the positive class that the call finds by itself changes nothing *)
Lemma pre_named w cl X y cf pc names kw df f p bt :
  fit_pre w cl X y cf pc names kw = Ok (df, f, p, bt) -> fit_pre w cl X y cf (Some p) names kw = Ok (df, f, p, bt).
Proof.
  unfold fit_pre, preprocess_training. destruct (check_input X y cf names true) as [u|]; [|discriminate]. cbn [bind].
  destruct (class_feat_name cf y) as [g|].
  - destruct (training_df X y g names) as [d|]; [|discriminate]. cbn [bind].
    destruct (get_pos_class (column d g) pc) as [p'|]; [|discriminate]. cbn [bind get_pos_class].
    destruct (fit_transform _ _ _ _) as [ [bt' df']|]; [|discriminate]. cbn [bind]. intros E. injection E as <- <- <- <-. reflexivity.
  - intros E. binv E. binv E. binv E. discriminate.
Qed.
Lemma input_good X y cf names f vs ix fr : training_input X y cf names f vs ix -> table_of X names fr -> good_frame fr /\ frows fr <> [].
Proof. intros [fr0 _ _ TB G NE _ _ _|y' fr0 _ _ _ TB G NE _ _ _ _] TB'; rewrite (table_fun _ _ _ _ TB' TB); auto. Qed.
Lemma values_fun fr g cs cs' : good_frame fr /\ frows fr <> [] -> column_values fr g cs -> column_values fr g cs' -> cs = cs'.
Proof.
  intros [G NE] V V'. assert (C : column_present fr g).
  { destruct V as [L V]. destruct (frows fr) as [|r rs] eqn:R; [congruence|]. destruct cs as [|v cs]; [discriminate|]. destruct (V 0 r v eq_refl eq_refl) as (j & c & N & E & _).
    exists c. split; auto. eapply nth_error_In; eauto. }
  destruct (col_values _ _ _ G C V). destruct (col_values _ _ _ G C V'). congruence. Qed.

(** ** C105: without pruning (prune_size None or 0) the model does not depend on the random state. [w] and [w'] are two runs of Python with other shuffles
    (another random_state, or none), other results of int(n*size), other iteration order of sets and other random samples, but the same hash function and the same way
    of cutting columns: the same call of fit, with the default cn_optimize, gives the same rules with the same statistics. *)
Theorem C105_random_state_irrelevant : forall w w' cl X y cf pc names f vs ix fr init kw c1,
  world_ok w -> world_ok w' -> w_cut w = w_cut w' -> (forall l, e_hash (w_env w) l = e_hash (w_env w') l) ->
  training_input X y cf names f vs ix -> NoDup ix -> table_of X names fr ->
  let h := hyper_of cl kw in
  (h_nbins h = None \/ exists n, h_nbins h = Some n /\ (0 <= n)%Z) -> (h_prune h == 0)%Q ->
  fit w cl X y cf pc names init true kw = (c1, Ok tt) ->
  exists c2 x1 x2, fit w' cl X y cf pc names init true kw = (c2, Ok tt) /\
    c_rs c1 = Some x1 /\ c_rs c2 = Some x2 /\ rs_rules x1 = rs_rules x2 /\ rs_uncov x1 = rs_uncov x2 /\
    c_sel c1 = c_sel c2 /\ c_cf c1 = c_cf c2 /\ c_pc c1 = c_pc c2 /\ c_bt c1 = c_bt c2 /\
    (forall Z znames, snd (clf_predict c1 Z znames) = snd (clf_predict c2 Z znames) /\ snd (clf_predict_reasons c1 Z znames) = snd (clf_predict_reasons c2 Z znames) /\
      snd (clf_predict_proba c1 Z znames) = snd (clf_predict_proba c2 Z znames)).
Proof.
  intros w w' cl X y cf pc names f vs ix fr init kw c1 WO WO' CUT EH T ND TB h NB PR H.
  assert (G := input_good _ _ _ _ _ _ _ _ T TB).
  destruct (fit_fitted _ _ _ _ _ _ _ _ _ _ _ H) as (df & f1 & p & bt & xi & y1 & y2 & FT). assert (FP := ft_pre _ _ _ _ _ _ _ _ _ _ _ _ _ _ _ _ _ _ FT). clear FT.
  assert (FP' : fit_pre w' cl X y cf pc names kw = Ok (df, f1, p, bt)) by (unfold fit_pre; rewrite <- CUT; exact FP).
  assert (EQ : forall v q, fit_pre v cl X y cf pc names kw = Ok q -> fit_pre v cl X y cf (Some p) names kw = Ok q -> fit v cl X y cf pc names init true kw = fit v cl X y cf (Some p) names init true kw).
  { intros v q E1 E2. unfold fit_pre, fit_nbins, fit in *. destruct (c_alg cl).
    - destruct (irep_start init) as [x|er]; auto. unfold irep_fit. rewrite E1, E2. reflexivity.
    - unfold ripper_fit. rewrite E1, E2. reflexivity. }
  assert (EW := EQ w _ FP (pre_named _ _ _ _ _ _ _ _ _ _ _ _ FP)). assert (EW' := EQ w' _ FP' (pre_named _ _ _ _ _ _ _ _ _ _ _ _ FP')). rewrite EW in H. rewrite EW'. clear EQ.
  destruct (C100_row_order w w' cl X y cf names X y cf names f vs vs ix ix fr fr (seq 0 (length (frows fr))) p init kw c1) as (c2 & x1 & x2 & H2 & R1 & R2 & A1 & A2 & A3 & A4 & A5 & A6); auto.
  - apply reordered_id.
  - intros g cs cs' I V V'. rewrite (values_fun fr g cs cs' G V V'). reflexivity.
  - intros g I. right. intros n cs cs' _ V V'. rewrite (values_fun fr g cs cs' G V V'), CUT. reflexivity.
  - exists c2, x1, x2. do 9 (split; [assumption|]). eapply same_answers; eauto.
Qed.
Print Assumptions C105_random_state_irrelevant.
(** the hypotheses are met by the eight visits of Prop_Order.v and a run that reverses every list it shuffles and every set *)
Definition w_rev : world := mkworld (mkenv (fun _ l => rev l) (e_split env0) (@rev pyval) (e_hash env0)) cut0 (fun n l => firstn n l).
Lemma w_rev_ok : world_ok w_rev.
Proof.
  split; [|exact cut0_ok]. destruct env0_ok as [A B C D E]. split; [|exact B|exact C|exact D|]; [intros t l|intros l]; apply Permutation_sym, Permutation_rev.
Qed.
Example C105_nonvacuous : exists c2 x1 x2, fit w_rev irep_full (DFrame visits) None (Some (s_ "buys")) (Some (s_ "y")) None MNone true [] = (c2, Ok tt) /\
  c_rs visits_irep = Some x1 /\ c_rs c2 = Some x2 /\ rs_rules x1 = rs_rules x2 /\ map rule_str (rs_rules x2) = [$"[u=b]"; $"[v=1]"].
Proof.
  destruct (C105_random_state_irrelevant w1 w_rev irep_full (DFrame visits) None (Some (s_ "buys")) (Some (s_ "y")) None (s_ "buys") (buys visits) (labels (frows visits)) visits MNone [] visits_irep)
    as (c2 & x1 & x2 & F & R1 & R2 & E & _).
  - exact w1_ok.
  - exact w_rev_ok.
  - reflexivity.
  - reflexivity.
  - apply visits_input. auto.
  - apply visits_nodup.
  - apply table_frame.
  - right. exists 2%Z. split; [reflexivity|lia].
  - reflexivity.
  - exact visits_irep_ok.
  - exists c2, x1, x2. do 4 (split; [assumption|]). assert (K := visits_irep_rules). rewrite R1 in K. cbn [option_map] in K. injection K as K. rewrite <- E. exact K.
Qed.
(** REFUTED with pruning, on: two runs of the same call learn different rules from these ten examples *)
Definition ten : frame := mkframe [s_ "a"; s_ "b"; s_ "c"; s_ "class"] [mkrow 0 [s_ "0"; s_ "1"; s_ "1"; s_ "n"]; mkrow 1 [s_ "0"; s_ "1"; s_ "1"; s_ "p"]; mkrow 2 [s_ "0"; s_ "1"; s_ "1"; s_ "p"]; mkrow 3 [s_ "1"; s_ "0"; s_ "0"; s_ "n"]; mkrow 4 [s_ "1"; s_ "0"; s_ "1"; s_ "p"]; mkrow 5 [s_ "0"; s_ "1"; s_ "1"; s_ "p"]; mkrow 6 [s_ "1"; s_ "0"; s_ "0"; s_ "n"]; mkrow 7 [s_ "1"; s_ "0"; s_ "0"; s_ "n"]; mkrow 8 [s_ "0"; s_ "1"; s_ "1"; s_ "p"]; mkrow 9 [s_ "0"; s_ "0"; s_ "1"; s_ "n"]].
Theorem C105_pruning_refuted : world_ok w1 /\ world_ok w_rev /\ w_cut w1 = w_cut w_rev /\ (forall l, e_hash (w_env w1) l = e_hash (w_env w_rev) l) /\
  let ten_fit w := fit w (construct IREP_ []) (DFrame ten) None (Some (s_ "class")) (Some (s_ "p")) None MNone true [] in
  snd (ten_fit w1) = Ok tt /\ snd (ten_fit w_rev) = Ok tt /\
  option_map (fun x => map rule_str (rs_rules x)) (c_rs (fst (ten_fit w1))) = Some [$"[c=1]"] /\
  option_map (fun x => map rule_str (rs_rules x)) (c_rs (fst (ten_fit w_rev))) = Some [$"[b=1]"].
Proof. split; [exact w1_ok|]. split; [exact w_rev_ok|]. split; [reflexivity|]. split; [reflexivity|]. cbv zeta. split; [|split; [|split]]; vm_compute; reflexivity. Qed.
Print Assumptions C105_pruning_refuted.
