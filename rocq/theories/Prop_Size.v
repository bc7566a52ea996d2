(** * Prop_Size.v : a fitted model is no larger than its training data (C115) *)
From Verif Require Import RipperStages Useful FitRun PrepFacts CallSpec Prop_Fit Prop_FitModel Prop_Irep Prop_Ripper Demo Prop_Helpers Prop_Fires Prop_Useful Prop_Matters Prop_Model Prop_Bins.
From Verif Require Import ProbaSpec ProbaFacts ClfSpec ClfFacts TransFacts.
Open Scope nat_scope.

Lemma pairs_in_order {A} (P : A -> A -> Prop) (l : list A) : (forall u a v b t, l = u ++ a :: v ++ b :: t -> P a b) -> ForallOrdPairs P l.
Proof.
  induction l as [|a l IH]; intros H; constructor.
  - apply Forall_forall. intros b I. apply in_split in I. destruct I as (v & t & ->). apply (H [] a v b t). reflexivity.
  - apply IH. intros u x v y t E. apply (H (a :: u) x v y t). rewrite E. reflexivity.
Qed.
Lemma FOP_map {A B} (f : A -> B) (P : B -> B -> Prop) l : ForallOrdPairs (fun a b => P (f a) (f b)) l -> ForallOrdPairs P (map f l).
Proof.
  induction 1 as [|a l F O IH]; cbn [map]; constructor; auto. apply Forall_forall. intros b I. apply in_map_iff in I. destruct I as (c & <- & J). rewrite Forall_forall in F. auto.
Qed.
Lemma conds_bound k l : (forall r, In r l -> length (conds r) <= k) -> count_conds l <= length l * k.
Proof.
  unfold count_conds. induction l as [|r l IH]; intros H; [cbn; lia|]. cbn [map list_sum fold_right length]. fold (list_sum (map (fun r => length (conds r)) l)).
  assert (A := H r (or_introl eq_refl)). assert (B := IH (fun s I => H s (or_intror I))). lia.
Qed.
Lemma table_length w cl X y cf pc names cnopt kw f vs ix cl' bt table binned_table : world_ok w -> training_input X y cf names f vs ix -> NoDup ix ->
  (0 <= h_prune (hyper_of cl kw))%Q -> (h_prune (hyper_of cl kw) <= 1)%Q -> nbins_fine (h_nbins (hyper_of cl kw)) ->
  fit w cl X y cf pc names MNone cnopt kw = (cl', Ok tt) -> c_bt cl' = Some bt -> training_df X y f names = Ok table -> transform bt table = Ok binned_table ->
  length (frows binned_table) = length vs.
Proof.
  intros WO T ND P0 P1 NB H B TD TR.
  destruct (fit_trained _ _ _ _ _ _ _ _ _ _ _ _ _ _ WO T ND P0 P1 NB H) as (df & df0 & p & bt' & xi & x1 & x2 & xx & pp & nn & p' & n' & FT & G & L & HC & TD' & TR' & ST).
  pose proof (pre_good _ _ _ _ _ _ _ _ _ _ _ _ _ _ _ WO (nbins_fine_ok _ NB) T ND (ft_pre _ _ _ _ _ _ _ _ _ _ _ _ _ _ _ _ _ _ FT)) as (_ & _ & _ & _ & _ & CV & _).
  pose proof (ft_bt _ _ _ _ _ _ _ _ _ _ _ _ _ _ _ _ _ _ FT) as FB. rewrite B in FB. injection FB as <-. rewrite TD in TD'. injection TD' as <-. rewrite TR in TR'. injection TR' as <-.
  rewrite <- CV, TransFacts.column_length; [reflexivity|apply G|exact HC].
Qed.

(** ** The learners add at most one rule per positive example each time they grow *)
Lemma irep_cn_adds fuel e h cn : forall t rs pos neg rs' t', irep_loop_cn fuel e h cn t rs pos neg = Ok (rs', t') -> length rs' < length rs + fuel.
Proof.
  induction fuel as [|k IH]; intros t rs pos neg rs' t' H; cbn [irep_loop_cn] in H; [discriminate|].
  destruct (length pos =? 0); [injection H as <- _; lia|]. destruct (stop_early _ _ _ _ _ _ _); [injection H as <- _; lia|].
  destruct (random_split e t _ pos) as [pg pp], (random_split e (S t) _ neg) as [ng np]. binv H. destruct (prune_off h).
  - apply IH in H. unfold rs_add in H. rewrite app_length in H. cbn [length] in H. lia.
  - binv H. match type of H with match ?o with Some _ => _ | None => _ end = _ => destruct o as [r|]; [|discriminate] end.
    destruct (bad_precision _); [injection H as <- _; lia|]. destruct (rm_rule_covers_cn cn r pos neg) as [p1 n1]. apply IH in H. unfold rs_add in H. rewrite app_length in H. cbn [length] in H. lia.
Qed.
Lemma irep_df_adds fuel e h cols possible : forall t rs pos neg rs' t', irep_loop fuel e h cols possible t rs pos neg = Ok (rs', t') -> length rs' < length rs + fuel.
Proof.
  induction fuel as [|k IH]; intros t rs pos neg rs' t' H; cbn [irep_loop] in H; [discriminate|].
  destruct (length pos =? 0); [injection H as <- _; lia|]. destruct (stop_early _ _ _ _ _ _ _); [injection H as <- _; lia|].
  destruct (df_shuffled_split e t _ pos) as [pg pp], (df_shuffled_split e (S t) _ neg) as [ng np]. binv H. destruct (prune_off h).
  - apply IH in H. unfold rs_add in H. rewrite app_length in H. cbn [length] in H. lia.
  - binv H. match type of H with match ?o with Some _ => _ | None => _ end = _ => destruct o as [r|]; [|discriminate] end.
    destruct (bad_precision _); [injection H as <- _; lia|]. apply IH in H. unfold rs_add in H. rewrite app_length in H. cbn [length] in H. lia.
Qed.
Lemma ripper_cn_adds fuel e h cn pos0 neg0 : forall t rs st diff pos neg rs' t', ripper_loop_cn fuel e h cn pos0 neg0 t rs st diff pos neg = Ok (rs', t') -> length rs' < length rs + fuel.
Proof.
  induction fuel as [|k IH]; intros t rs st diff pos neg rs' t' H; cbn [ripper_loop_cn] in H; [discriminate|].
  destruct (_ || _); [injection H as <- _; lia|]. destruct (stop_early _ _ _ _ _ _ _); [injection H as <- _; lia|].
  destruct (random_split e t _ pos) as [pg pp], (random_split e (S t) _ neg) as [ng np]. destruct (length pg =? 0); [injection H as <- _; lia|].
  binv H. destruct (rule_isempty _); [injection H as <- _; lia|]. binv H. match type of H with match ?o with Some _ => _ | None => _ end = _ => destruct o as [r|]; [|discriminate] end.
  binv H. match type of H with (let '(_, _) := ?q in _) = _ => destruct q as [st' diff'] end. destruct (rm_rule_covers_cn cn r pos neg) as [p1 n1].
  apply IH in H. unfold rs_add in H. rewrite app_length in H. cbn [length] in H. lia.
Qed.
Lemma ripper_df_adds fuel e h cols possible pos0 neg0 : forall t rs st diff pos neg rs' t', ripper_loop fuel e h cols possible pos0 neg0 t rs st diff pos neg = Ok (rs', t') ->
  length rs' < length rs + fuel.
Proof.
  induction fuel as [|k IH]; intros t rs st diff pos neg rs' t' H; cbn [ripper_loop] in H; [discriminate|].
  destruct (_ || _); [injection H as <- _; lia|]. destruct (stop_early _ _ _ _ _ _ _); [injection H as <- _; lia|].
  destruct (df_shuffled_split e t _ pos) as [pg pp], (df_shuffled_split e (S t) _ neg) as [ng np]. destruct (length pg =? 0); [injection H as <- _; lia|].
  binv H. destruct (rule_isempty _); [injection H as <- _; lia|]. binv H. match type of H with match ?o with Some _ => _ | None => _ end = _ => destruct o as [r|]; [|discriminate] end.
  binv H. match type of H with (let '(_, _) := ?q in _) = _ => destruct q as [st' diff'] end.
  apply IH in H. unfold rs_add in H. rewrite app_length in H. cbn [length] in H. lia.
Qed.
Lemma labels_count l : length (labels l) = length l. Proof. apply map_length. Qed.
Section S.
Context {e h df cf pc x p n p' n'} (ST : setting e h df cf pc x p n p' n').
Lemma drop_rows q cf' q' : drop_col q cf' = Ok q' -> length (frows q') = length (frows q).
Proof. unfold drop_col. destruct (col_pos _ _); [|discriminate]. intros H. injection H as <-. cbn [frows]. apply map_length. Qed.
Lemma irep_adds cnopt init rs : irep_train e h cnopt df cf pc init = Ok rs -> length (rs_rules rs) <= length (rs_rules init) + length (frows p).
Proof.
  unfold irep_train. rewrite (s_split _ _ _ _ _ _ _ _ _ _ ST). intros H. destruct cnopt.
  - binv H. cbn [bind] in H. binv H. match type of H with (let '(_, _) := ?q in _) = _ => destruct q as [l t] end. injection H as <-. cbn [rs_rules].
    unfold irep_grow_cn in *. match goal with K : irep_loop_cn _ _ _ _ _ _ _ _ = Ok _ |- _ => apply irep_cn_adds in K; rewrite labels_count in K; lia end.
  - cbn [bind] in H. rewrite (s_p' _ _ _ _ _ _ _ _ _ _ ST), (s_n' _ _ _ _ _ _ _ _ _ _ ST) in H. cbn [bind] in H. binv H.
    match type of H with (let '(_, _) := ?q in _) = _ => destruct q as [l t] end. injection H as <-. cbn [rs_rules].
    unfold irep_grow in *. match goal with K : irep_loop _ _ _ _ _ _ _ _ _ = Ok _ |- _ => apply irep_df_adds in K; rewrite (drop_rows _ _ _ (s_p' _ _ _ _ _ _ _ _ _ _ ST)) in K; lia end.
Qed.
Lemma ripper_adds cnopt init rs : ripper_train e h cnopt df cf pc init = Ok rs -> length (rs_rules rs) <= length (rs_rules init) + 2 * length (frows p).
Proof.
  intros H. pose proof (s_env _ _ _ _ _ _ _ _ _ _ ST) as Eo. pose proof (s_prune0 _ _ _ _ _ _ _ _ _ _ ST) as P0. pose proof (s_prune1 _ _ _ _ _ _ _ _ _ _ ST) as P1. destruct cnopt.
  - destruct (ripper_train_cn_stages ST init rs H) as (cn & rs1 & t1 & rs2 & t2 & rs3 & t3 & rs4 & q & C & S1 & S2 & S3 & S4 & ->). cbn [rs_rules Ruleset_].
    destruct (st_index ST) as (cn' & C' & IX & _). assert (cn' = cn) by congruence. subst cn'. destruct (idx_in ST cn IX) as [Ip In_].
    unfold ripper_grow_cn in S1. apply ripper_cn_adds in S1. rewrite labels_count in S1.
    apply optimize_iter_inv with (P := fun l => length l = length rs1) in S2; auto.
    2:{ intros t a b t' La Hab. apply optimize_cn_run in Hab; auto. destruct Hab. congruence. }
    assert (B3 : length rs3 <= length rs2 + length (frows p)).
    { unfold cover_remaining_cn in S3. destruct (1 <=? _); [|injection S3 as <- _; lia].
      unfold ripper_grow_cn in S3. apply ripper_cn_adds in S3. rewrite labels_count in S3. lia. }
    apply best_subset_run in S4. destruct S4 as [S4 _]. apply sublist_length in S4. lia.
  - destruct (ripper_train_df_stages ST init rs H) as (rs1 & t1 & rs2 & t2 & rs3 & poss3 & t3 & rs4 & q & S1 & S2 & S3 & S4 & ->). cbn [rs_rules Ruleset_].
    destruct (st_nodup' ST) as [N1 N2]. pose proof (drop_rows _ _ _ (s_p' _ _ _ _ _ _ _ _ _ _ ST)) as DR.
    unfold ripper_grow in S1. apply ripper_df_adds in S1.
    apply optimize_iter_inv with (P := fun l => length l = length rs1) in S2; auto.
    2:{ intros t a b t' La Hab. apply optimize_run in Hab; auto. destruct Hab. congruence. }
    assert (B3 : length rs3 <= length rs2 + length (frows p)).
    { unfold cover_remaining in S3. destruct (1 <=? _); [|injection S3 as <- _ _; lia].
      binv S3. match type of S3 with (let '(_, _) := ?q in _) = _ => destruct q as [rs' t'] end. injection S3 as -> _ _.
      match goal with K : ripper_grow _ _ _ _ _ _ _ _ = Ok _ |- _ => unfold ripper_grow in K; apply ripper_df_adds in K; unfold drop_labels in K;
        match type of K with context [filter ?f (frows p')] => pose proof (sublist_length _ _ (sublist_filter f (frows p'))) end end. lia. }
    apply best_subset_run in S4. destruct S4 as [S4 _]. apply sublist_length in S4. lia.
Qed.
End S.
Lemma pos_count df f p : good_frame df -> has_col df f = true -> length (pos_rows df f p) = length (filter (fun v => py_eq v p) (column df f)).
Proof.
  intros G HC. unfold pos_rows, column. pose proof (TransFacts.column_length df f (proj1 G) HC) as L. unfold column in L. revert L.
  assert (LE : forall l, length (flat_map (fun r => match cell (fcols df) f r with Some v => [v] | None => [] end) l) <= length l).
  { induction l as [|r l IH]; cbn [flat_map length]; auto. rewrite app_length. destruct (cell _ _ _); cbn [length]; lia. }
  induction (frows df) as [|r l IH]; [reflexivity|]. cbn [flat_map length filter]. rewrite app_length. unfold cell_eq at 1. destruct (cell (fcols df) f r) as [v|]; cbn [length app filter].
  - intros L. destruct (py_eq v p); cbn [length]; rewrite IH; lia.
  - intros L. specialize (LE l). lia.
Qed.

(** C115 (rules). Whatever the engine, the hyperparameters and the initial model, IREP.fit adds at most as many rules to the initial ones as there are
    positive labels, and RIPPER.fit at most twice as many. *)
Theorem C115_rule_count : forall w cl X y cf pc names init cnopt kw f vs ix cl' x0 x p,
  world_ok w -> training_input X y cf names f vs ix -> NoDup ix ->
  let h := hyper_of cl kw in
  (0 <= h_prune h)%Q -> (h_prune h <= 1)%Q -> (h_nbins h = None \/ exists n, h_nbins h = Some n /\ (0 <= n)%Z) ->
  model_means init x0 -> fit w cl X y cf pc names init cnopt kw = (cl', Ok tt) -> c_rs cl' = Some x -> c_pc cl' = Some p ->
  let positives := length (filter (fun v => py_eq v p) vs) in
  length (rs_rules x) <= length (rs_rules x0) + match c_alg cl with IREP_ => positives | RIPPER_ => 2 * positives end.
Proof.
  intros w cl X y cf pc names init cnopt kw f vs ix cl' x0 x p WO T ND h P0 P1 NB M H RS PC positives.
  destruct (fit_trained _ _ _ _ _ _ _ _ _ _ _ _ _ _ WO T ND P0 P1 NB H) as (df & df0 & p0 & bt & xi & x1 & x2 & xx & pp & nn & p' & n' & FT & G & L & HC & TD & TR & ST).
  pose proof (pre_good _ _ _ _ _ _ _ _ _ _ _ _ _ _ _ WO (nbins_fine_ok _ NB) T ND (ft_pre _ _ _ _ _ _ _ _ _ _ _ _ _ _ _ _ _ _ FT)) as (_ & _ & _ & _ & _ & CV & _).
  destruct FT as [FP FI FTR FF FR FC FPC FB FS FA FH FCl FFe]. rewrite FR in RS. injection RS as <-. rewrite FPC in PC. injection PC as <-.
  rewrite (means_from _ _ M) in FI. injection FI as <-.
  assert (LX : length (rs_rules x2) <= length (rs_rules x1)).
  { rewrite (Forall2_length _ _ _ (finish_conds _ _ _ _ _ _ _ _ FF)). apply sublist_length, kept_sublist. }
  assert (LP : length (frows pp) = positives). { destruct (st_pn ST) as [-> _]. unfold positives. rewrite <- CV. apply pos_count; auto. }
  rewrite <- LP. destruct (c_alg cl); cbn [train] in FTR; [apply (irep_adds ST) in FTR|apply (ripper_adds ST) in FTR]; lia.
Qed.
Print Assumptions C115_rule_count.

(** C115. In a classifier fitted without an initial model every rule has at most as many conditions as the training table has features -- at most as many as
    there are selected features --; with IREP, or RIPPER with its default engine, there are at most as many rules as training examples; so the number
    of conditions of the whole model is at most examples times features. *)
Theorem C115_size : forall w cl X y cf pc names cnopt kw f vs ix cl' fr,
  world_ok w -> training_input X y cf names f vs ix -> NoDup ix ->
  let h := hyper_of cl kw in
  (0 <= h_prune h)%Q -> (h_prune h <= 1)%Q -> (h_nbins h = None \/ exists n, h_nbins h = Some n /\ (0 <= n)%Z) ->
  fit w cl X y cf pc names MNone cnopt kw = (cl', Ok tt) -> table_of X names fr ->
  exists x sel, c_rs cl' = Some x /\ c_sel cl' = Some sel /\
    (forall r, In r (rs_rules x) -> length (conds r) <= length sel /\ length (conds r) <= length (feature_columns f fr)) /\
    (c_alg cl = IREP_ \/ cnopt = true -> length (rs_rules x) <= length vs /\ count_conds (rs_rules x) <= length vs * length (feature_columns f fr)).
Proof.
  intros w cl X y cf pc names cnopt kw f vs ix cl' fr WO T ND h P0 P1 NB H TB.
  destruct (C84_feature_lists _ _ _ _ _ _ _ _ _ _ _ _ _ _ WO T ND P0 P1 NB H TB) as (x & sel & bt & RS & EB & EF & ES & S1 & S2 & S3 & _).
  exists x, sel. split; [exact RS|]. split; [exact ES|].
  assert (A : forall r l, In r (rs_rules x) -> (forall g, In g sel -> In g l) -> length (conds r) <= length l).
  { intros r l I IN. rewrite <- (map_length cfeat (conds r)). apply (pigeon py_eq py_eq_sym).
    - intros a b c A B. eapply py_eq_trans; eauto.
    - intros u J. apply in_map_iff in J. destruct J as (c & <- & J). exists (cfeat c). split; [exact (IN _ (S3 r c I J))|].
      destruct (C26_fit_conditions_from_data _ _ _ _ _ _ _ _ _ _ _ _ _ _ _ _ WO T ND P0 P1 NB H RS I J) as (bt' & table & df & _ & _ & _ & FD).
      destruct FD as (_ & _ & rw & _ & V). destruct V as (j & k & _ & E & _). apply (py_eq_trans _ k); [|]; try exact E; rewrite py_eq_sym; exact E.
    - apply FOP_map. apply pairs_in_order. intros u a v b t E. destruct (C73_features_once _ _ _ _ _ _ _ _ _ _ _ _ _ _ _ WO T ND P0 P1 NB H RS I) as [N _].
      rewrite (N u a v b t E). discriminate. }
  split; [intros r I; split; apply A; auto|]. intros K.
  assert (L : length (rs_rules x) <= length vs).
  { destruct (c_alg cl) eqn:AL.
    - destruct (fit_irep_works _ _ _ _ _ _ _ _ _ _ _ _ _ _ AL WO T ND P0 P1 NB H RS) as (bt' & t & b & p & B1 & B2 & B3 & B4 & B5).
      destruct (rules_count _ _ _ _ B5) as (rws & <- & N & R). rewrite <- (table_length _ _ _ _ _ _ _ _ _ _ _ _ _ _ _ _ WO T ND P0 P1 NB H B1 B3 B4).
      apply NoDup_incl_length; [exact N|]. intros rw I. apply R. exact I.
    - destruct K as [K|K]; [discriminate K|]. subst cnopt. apply (C95_fit_rules_matter _ _ _ _ _ _ _ _ _ _ _ _ _ AL WO T ND P0 P1 NB H RS). }
  split; [exact L|]. etransitivity; [apply (conds_bound (length (feature_columns f fr)))|apply Nat.mul_le_mono_r; exact L]. intros r I. apply A; auto.
Qed.
Print Assumptions C115_size.

(** Non-vacuity: sixteen examples, three features, two rules with three conditions together *)
Lemma sixteen_table : table_of (DRows sixteen_rows) (Some [s_ "a"; s_ "b"; s_ "c"]) sixteen_fr.
Proof. apply (table_rows_named sixteen_rows 3 sixteen_fr); auto; [discriminate|]. intros r I. repeat (destruct I as [<-|I]; [reflexivity|]). destruct I. Qed.
Example C115_nonvacuous : exists cl' x,
  fit w1 (construct RIPPER_ []) (DRows sixteen_rows) (Some sixteen_y) (Some (s_ "class")) (Some (s_ "p")) (Some [s_ "a"; s_ "b"; s_ "c"]) MNone true [] = (cl', Ok tt) /\ c_rs cl' = Some x /\
  length (rs_rules x) = 2 /\ count_conds (rs_rules x) = 3 /\ length (rs_rules x) <= length (y_vals sixteen_y) /\
  count_conds (rs_rules x) <= length (y_vals sixteen_y) * length (feature_columns (s_ "class") sixteen_fr).
Proof.
  edestruct (C115_size w1 (construct RIPPER_ []) (DRows sixteen_rows) (Some sixteen_y) (Some (s_ "class")) (Some (s_ "p")) (Some [s_ "a"; s_ "b"; s_ "c"]) true [])
    as (x & sel & A1 & A2 & A3 & A4); [exact w1_ok|exact sixteen_input|apply seq_NoDup|discriminate|discriminate| |vm_compute; reflexivity|exact sixteen_table|].
  - right. eexists. split; [reflexivity|discriminate].
  - destruct (A4 (or_intror eq_refl)) as [L M]. eexists. exists x. split; [vm_compute; reflexivity|]. split; [exact A1|]. cbn [c_rs] in A1. injection A1 as <-.
    split; [reflexivity|]. split; [vm_compute; reflexivity|]. split; [exact L|exact M].
Qed.
(** an initial model of one rule, to which RIPPER adds one; seven positive labels *)
Example C115_init_nonvacuous : exists cl' x,
  fit w1 (construct RIPPER_ []) (DRows sixteen_rows) (Some sixteen_y) (Some (s_ "class")) (Some (s_ "p")) (Some [s_ "a"; s_ "b"; s_ "c"]) (MStr ($"[[a=z]]")) true [] = (cl', Ok tt) /\ c_rs cl' = Some x /\
  1 < length (rs_rules x) /\ length (filter (fun v => py_eq v (s_ "p")) (y_vals sixteen_y)) = 7 /\ length (rs_rules x) <= 1 + 2 * 7.
Proof.
  eexists. eexists. split; [vm_compute; reflexivity|]. split; [reflexivity|]. split; [vm_compute; lia|]. split; [vm_compute; reflexivity|].
  edestruct (asruleset (OStr ($"[[a=z]]"))) as [l|] eqn:EL; [|vm_compute in EL; discriminate].
  epose proof (C115_rule_count w1 (construct RIPPER_ []) (DRows sixteen_rows) (Some sixteen_y) (Some (s_ "class")) (Some (s_ "p")) (Some [s_ "a"; s_ "b"; s_ "c"]) (MStr ($"[[a=z]]")) true []
    _ _ _ _ (Ruleset_ l) _ _ w1_ok sixteen_input (seq_NoDup _ _)) as B.
  cbv zeta in B. specialize (B ltac:(discriminate) ltac:(discriminate)). specialize (B ltac:(right; eexists; split; [reflexivity|discriminate])).
  specialize (B (means_text ($"[[a=z]]") l ltac:(vm_compute; discriminate) EL) ltac:(vm_compute; reflexivity) eq_refl eq_refl). vm_compute in EL. injection EL as <-. vm_compute in B. vm_compute. exact B.
Qed.
