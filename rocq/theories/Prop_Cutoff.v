(** * Prop_Cutoff.v : C98 -- limits on the rule set only cut the list of rules that IREP learns short *)
From Verif Require Import Algo Useful UsefulSpec FitRun Prop_Fit Prop_FitModel Prop_Irep Prop_Useful Demo Prop_Helpers Prop_Samples Prop_Classifier RuleFacts.
From Verif Require Import ProbaSpec ProbaFacts ClfSpec ClfFacts AlgoSpec.
Open Scope nat_scope.

(** a limit from above / below that admits at least as much *)
Definition upto (a b : option Z) : Prop := forall n, b = Some n -> exists m, a = Some m /\ (m <= n)%Z.
(** [h'] is [h] with the limits on the rule set -- max_rules, max_total_conds, min_ruleset_samples -- relaxed or dropped *)
Record relaxed (h h' : hyper) : Prop := mkrelaxed {
  rx_prune : h_prune h = h_prune h'; rx_nbins : h_nbins h = h_nbins h'; rx_conds : h_max_rule_conds h = h_max_rule_conds h'; rx_samples : h_min_rule_samples h = h_min_rule_samples h';
  rx_alpha : h_alpha h = h_alpha h'; rx_max : upto (h_max_rules h) (h_max_rules h'); rx_total : upto (h_max_total_conds h) (h_max_total_conds h');
  rx_min : forall n, h_min_ruleset_samples h' = Some n -> exists m, h_min_ruleset_samples h = Some m /\ (n <= m)%Z }.

Lemma relaxed_limit h h' rs n : relaxed h h' -> ruleset_limit h' rs n -> ruleset_limit h rs n.
Proof.
  intros R [(m & E & L)|[(m & E & L)|(m & E & L)] ].
  - destruct (rx_max _ _ R m E) as (k & K & I). left. exists k. split; [auto|lia].
  - destruct (rx_total _ _ R m E) as (k & K & I). right; left. exists k. split; [auto|lia].
  - destruct (rx_min _ _ R m E) as (k & K & I). right; right. exists k. split; [auto|lia].
Qed.
Lemma relaxed_stop h h' rs a b : relaxed h h' ->
  stop_early (length rs) (count_conds rs) a b (h_max_rules h) (h_min_ruleset_samples h) (h_max_total_conds h) = false ->
  stop_early (length rs) (count_conds rs) a b (h_max_rules h') (h_min_ruleset_samples h') (h_max_total_conds h') = false.
Proof.
  intros R E. apply Bool.not_true_iff_false. intros K. apply stop_early_iff in K. apply (relaxed_limit _ _ _ _ R) in K. apply stop_early_iff in K. congruence.
Qed.
Ltac both H H' := let a := fresh "v" in let E := fresh "E" in apply bind_Ok in H; destruct H as (a & E & H); rewrite E in H'; cbn [bind] in H'.
(** the loops only append *)
Lemma loop_cn_extends fuel e h cn : forall t rs pos neg rs' t', irep_loop_cn fuel e h cn t rs pos neg = Ok (rs', t') -> Spec.prefix rs rs'.
Proof.
  induction fuel as [|k IH]; intros t rs pos neg rs' t' H; [discriminate|]. cbn [irep_loop_cn] in H.
  destruct (length pos =? 0); [injection H as <- _; apply prefix_refl|]. destruct (stop_early _ _ _ _ _ _ _); [injection H as <- _; apply prefix_refl|].
  destruct (random_split _ _ _ pos) as [pg pp], (random_split _ _ _ neg) as [ng np]. binv H. destruct (prune_off h).
  - apply IH in H. eapply prefix_trans; [|exact H]. apply prefix_app.
  - binv H. destruct v0 as [q|]; [|discriminate]. destruct (bad_precision _); [injection H as <- _; apply prefix_refl|]. destruct (rm_rule_covers_cn _ _ _ _) as [p1 n1].
    apply IH in H. eapply prefix_trans; [|exact H]. apply prefix_app.
Qed.
Lemma loop_extends fuel e h cols poss : forall t rs pos neg rs' t', irep_loop fuel e h cols poss t rs pos neg = Ok (rs', t') -> Spec.prefix rs rs'.
Proof.
  induction fuel as [|k IH]; intros t rs pos neg rs' t' H; [discriminate|]. cbn [irep_loop] in H.
  destruct (length pos =? 0); [injection H as <- _; apply prefix_refl|]. destruct (stop_early _ _ _ _ _ _ _); [injection H as <- _; apply prefix_refl|].
  destruct (df_shuffled_split _ _ _ pos) as [pg pp], (df_shuffled_split _ _ _ neg) as [ng np]. binv H. destruct (prune_off h).
  - apply IH in H. eapply prefix_trans; [|exact H]. apply prefix_app.
  - binv H. destruct v0 as [q|]; [|discriminate]. destruct (bad_precision _); [injection H as <- _; apply prefix_refl|].
    apply IH in H. eapply prefix_trans; [|exact H]. apply prefix_app.
Qed.
(** the two runs side by side: equal, or the stricter one stops at a limit of its own *)
Definition cut_at (h h' : hyper) (a b : list rule) : Prop := Spec.prefix a b /\ (a = b \/ exists n, ruleset_limit h a n /\ ~ ruleset_limit h' a n).
Lemma loop_cn_cut e h h' cn : relaxed h h' -> forall fuel t rs pos neg a ta b tb,
  irep_loop_cn fuel e h cn t rs pos neg = Ok (a, ta) -> irep_loop_cn fuel e h' cn t rs pos neg = Ok (b, tb) -> cut_at h h' a b.
Proof.
  intros R. induction fuel as [|k IH]; intros t rs pos neg a ta b tb H H'; [discriminate|]. pose proof (loop_cn_extends _ _ _ _ _ _ _ _ _ _ H') as PF. cbn [irep_loop_cn] in H, H'.
  destruct (length pos =? 0); [injection H as <- _; injection H' as <- _; split; [apply prefix_refl|auto]|].
  destruct (stop_early _ _ _ _ (h_max_rules h) _ _) eqn:S.
  - injection H as <- _. split; [exact PF|]. destruct (stop_early _ _ _ _ (h_max_rules h') _ _) eqn:S'; [injection H' as <- _; auto|].
    right. exists (length pos + length neg). rewrite <- !stop_early_iff, S, S'. split; [reflexivity|discriminate].
  - rewrite (relaxed_stop _ _ _ _ _ R S) in H'. assert (PO : prune_off h' = prune_off h) by (unfold prune_off; rewrite (rx_prune _ _ R); reflexivity). assert (GS : grow_size h' = grow_size h) by (unfold grow_size; rewrite (rx_prune _ _ R); reflexivity).
    rewrite GS, PO, <- (rx_conds _ _ R), <- (rx_samples _ _ R) in H'.
    destruct (random_split _ _ _ pos) as [pg pp], (random_split _ _ _ neg) as [ng np]. both H H'. destruct (prune_off h); [eapply IH; eauto|].
    both H H'. destruct v0 as [q|]; [|discriminate]. destruct (bad_precision _); [injection H as <- _; injection H' as <- _; split; [apply prefix_refl|auto]|].
    destruct (rm_rule_covers_cn _ _ _ _) as [p1 n1]. eapply IH; eauto.
Qed.
Lemma loop_cut e h h' cols poss : relaxed h h' -> forall fuel t rs pos neg a ta b tb,
  irep_loop fuel e h cols poss t rs pos neg = Ok (a, ta) -> irep_loop fuel e h' cols poss t rs pos neg = Ok (b, tb) -> cut_at h h' a b.
Proof.
  intros R. induction fuel as [|k IH]; intros t rs pos neg a ta b tb H H'; [discriminate|]. pose proof (loop_extends _ _ _ _ _ _ _ _ _ _ _ H') as PF. cbn [irep_loop] in H, H'.
  destruct (length pos =? 0); [injection H as <- _; injection H' as <- _; split; [apply prefix_refl|auto]|].
  destruct (stop_early _ _ _ _ (h_max_rules h) _ _) eqn:S.
  - injection H as <- _. split; [exact PF|]. destruct (stop_early _ _ _ _ (h_max_rules h') _ _) eqn:S'; [injection H' as <- _; auto|].
    right. exists (length pos + length neg). rewrite <- !stop_early_iff, S, S'. split; [reflexivity|discriminate].
  - rewrite (relaxed_stop _ _ _ _ _ R S) in H'. assert (PO : prune_off h' = prune_off h) by (unfold prune_off; rewrite (rx_prune _ _ R); reflexivity). assert (GS : grow_size h' = grow_size h) by (unfold grow_size; rewrite (rx_prune _ _ R); reflexivity).
    rewrite GS, PO, <- (rx_conds _ _ R), <- (rx_samples _ _ R) in H'.
    destruct (df_shuffled_split _ _ _ pos) as [pg pp], (df_shuffled_split _ _ _ neg) as [ng np]. both H H'. destruct (prune_off h); [eapply IH; eauto|].
    both H H'. destruct v0 as [q|]; [|discriminate]. destruct (bad_precision _); [injection H as <- _; injection H' as <- _; split; [apply prefix_refl|auto]|]. eapply IH; eauto.
Qed.
Lemma train_cut e h h' cnopt df cf pc init a b : relaxed h h' -> irep_train e h cnopt df cf pc init = Ok a -> irep_train e h' cnopt df cf pc init = Ok b ->
  cut_at h h' (rs_rules a) (rs_rules b).
Proof.
  intros R HA HB. unfold irep_train in HA, HB. destruct cnopt.
  - both HA HB. rename v into cn. both HA HB. destruct v as [p n]. binv HA. destruct v as [ra ta]. injection HA as <-. binv HB. destruct v as [rb tb]. injection HB as <-. cbn [rs_rules].
    unfold irep_grow_cn in *. eapply loop_cn_cut; eauto.
  - both HA HB. destruct v as [p n]. both HA HB. rename v into p'. both HA HB. rename v into n'. binv HA. destruct v as [ra ta]. injection HA as <-. binv HB. destruct v as [rb tb]. injection HB as <-. cbn [rs_rules].
    unfold irep_grow in *. eapply loop_cut; eauto.
Qed.

(** ** recalibration, duplicate removal, trimming *)
Lemma mapM_prefix {A B} (f : A -> res B) a : forall b la lb, Spec.prefix a b -> mapM f a = Ok la -> mapM f b = Ok lb -> Spec.prefix la lb.
Proof.
  induction a as [|x a IH]; intros b la lb (s & ->) HA HB; cbn [mapM app] in *; [injection HA as <-; exists lb; reflexivity|].
  both HA HB. binv HA. injection HA as <-. binv HB. injection HB as <-. destruct (IH (a ++ s) v0 v1 (prefix_app a s) E0 E1) as (t & ->). exists t. reflexivity.
Qed.
Lemma dups_prefix H a : forall b seen, Spec.prefix a b -> Spec.prefix (remove_dups_from H seen a) (remove_dups_from H seen b).
Proof.
  induction a as [|r a IH]; intros b seen (s & ->); cbn [remove_dups_from app]; [eexists; reflexivity|]. destruct (in_set H seen r); [apply IH, prefix_app|].
  destruct (IH (a ++ s) (seen ++ [r]) (prefix_app _ _)) as (t & ->). exists t. reflexivity.
Qed.
Lemma prefix_both {A} (a b l : list A) : Spec.prefix a l -> Spec.prefix b l -> length a <= length b -> Spec.prefix a b.
Proof.
  intros P Q L. apply prefix_is_firstn in P, Q. destruct P as [P _], Q as [Q _]. rewrite P, Q. exists (skipn (length a) (firstn (length b) l)).
  rewrite <- (firstn_skipn (length a) (firstn (length b) l)) at 1. rewrite firstn_firstn. rewrite Nat.min_l by lia. reflexivity.
Qed.
Lemma trim_neg m l : (m < 0)%Z -> trim_conds (Some m) l = [].
Proof.
  intros H. unfold trim_conds. induction (rev l) as [|r k IH]; [reflexivity|]. cbn [trim_rev]. replace (m <? Z.of_nat (count_conds (r :: k)))%Z with true by (symmetry; apply Z.ltb_lt; lia). exact IH.
Qed.
Lemma trim_prefix m m' a b : upto m m' -> Spec.prefix a b -> Spec.prefix (trim_conds m a) (trim_conds m' b).
Proof.
  intros U P. assert (PA := prefix_trans _ _ _ (trim_conds_prefix m a) P). destruct m' as [n|]; [|exact PA]. destruct (U n eq_refl) as (k & -> & L).
  destruct (Z_lt_le_dec k 0) as [K|K]; [rewrite (trim_neg k a K); eexists; reflexivity|].
  destruct (trim_conds_spec k a K) as (_ & C & _). destruct (trim_conds_spec n b) as (Q & _ & M); [lia|]. eapply prefix_both; eauto. apply M; [auto|lia].
Qed.


Lemma recalibrate_rules alpha x df f p x' : recalibrate alpha x df f p = Ok x' -> mapM (rule_class_stats alpha df f p) (rs_rules x) = Ok (rs_rules x').
Proof. intros H. unfold recalibrate in H. binv H. apply bind_Ok in H. destruct H as (l & L & H). rewrite L. binv H. binv H. binv H. injection H as <-. reflexivity. Qed.
Lemma finish_cut w h h' df f p a b a2 b2 : relaxed h h' -> Spec.prefix (rs_rules a) (rs_rules b) ->
  finish w IREP_ h df f p a = Ok a2 -> finish w IREP_ h' df f p b = Ok b2 -> Spec.prefix (rs_rules a2) (rs_rules b2).
Proof.
  intros R P HA HB. cbn [finish] in *. rewrite <- (rx_alpha _ _ R) in HB. binv HA. injection HA as <-. binv HB. injection HB as <-. unfold dedupe_trim, set_rules. cbn [rs_rules].
  apply trim_prefix; [exact (rx_total _ _ R)|]. apply dups_prefix. apply recalibrate_rules in E, E0. eapply mapM_prefix; eauto.
Qed.
Lemma fits_cut w cl cl2 X y cf pc names init cnopt kw kw2 c1 c2 :
  c_alg cl = IREP_ -> c_alg cl2 = IREP_ -> relaxed (hyper_of cl kw) (hyper_of cl2 kw2) ->
  fit w cl X y cf pc names init cnopt kw = (c1, Ok tt) -> fit w cl2 X y cf pc names init cnopt kw2 = (c2, Ok tt) ->
  exists df f p bt xi a b x1 x2, fitted w cl X y cf pc names init cnopt kw c1 df f p bt xi a x1 /\ fitted w cl2 X y cf pc names init cnopt kw2 c2 df f p bt xi b x2 /\
    cut_at (hyper_of cl kw) (hyper_of cl2 kw2) (rs_rules a) (rs_rules b) /\ Spec.prefix (rs_rules x1) (rs_rules x2).
Proof.
  intros A1 A2 R H1 H2. destruct (fit_fitted _ _ _ _ _ _ _ _ _ _ _ H1) as (df & f & p & bt & xi & a & x1 & F1). destruct (fit_fitted _ _ _ _ _ _ _ _ _ _ _ H2) as (df' & f' & p' & bt' & xi' & b & x2 & F2).
  pose proof (ft_pre _ _ _ _ _ _ _ _ _ _ _ _ _ _ _ _ _ _ F1) as P1. pose proof (ft_pre _ _ _ _ _ _ _ _ _ _ _ _ _ _ _ _ _ _ F2) as P2.
  unfold fit_pre, fit_nbins in P1, P2. fold (hyper_of cl kw) in P1. fold (hyper_of cl2 kw2) in P2. rewrite (rx_nbins _ _ R) in P1. rewrite P1 in P2. injection P2 as <- <- <- <-.
  pose proof (ft_init _ _ _ _ _ _ _ _ _ _ _ _ _ _ _ _ _ _ F1) as I1. pose proof (ft_init _ _ _ _ _ _ _ _ _ _ _ _ _ _ _ _ _ _ F2) as I2. rewrite I1 in I2. injection I2 as <-.
  pose proof (ft_train _ _ _ _ _ _ _ _ _ _ _ _ _ _ _ _ _ _ F1) as T1. pose proof (ft_train _ _ _ _ _ _ _ _ _ _ _ _ _ _ _ _ _ _ F2) as T2. rewrite A1 in T1. rewrite A2 in T2. cbn [train] in T1, T2.
  pose proof (train_cut _ _ _ _ _ _ _ _ _ _ R T1 T2) as C. exists df, f, p, bt, xi, a, b, x1, x2. do 3 (split; auto).
  pose proof (ft_finish _ _ _ _ _ _ _ _ _ _ _ _ _ _ _ _ _ _ F1) as G1. pose proof (ft_finish _ _ _ _ _ _ _ _ _ _ _ _ _ _ _ _ _ _ F2) as G2. rewrite A1 in G1. rewrite A2 in G2.
  destruct C as [C _]. eapply finish_cut; eauto.
Qed.

(** C98. IREP trained twice on the same data, with the same random choices, and settings that differ in the limits on the rule set only (the second time they admit at least as much):
    the first model's rules, with their class counts and probabilities, are the first rules of the second model; bins, class and features are the same. *)
Theorem C98_limits_cut_short : forall w cl cl2 X y cf pc names init cnopt kw kw2 c1 c2,
  c_alg cl = IREP_ -> c_alg cl2 = IREP_ -> relaxed (hyper_of cl kw) (hyper_of cl2 kw2) ->
  fit w cl X y cf pc names init cnopt kw = (c1, Ok tt) -> fit w cl2 X y cf pc names init cnopt kw2 = (c2, Ok tt) ->
  exists x1 x2, c_rs c1 = Some x1 /\ c_rs c2 = Some x2 /\ Spec.prefix (rs_rules x1) (rs_rules x2) /\
    c_bt c1 = c_bt c2 /\ c_cf c1 = c_cf c2 /\ c_pc c1 = c_pc c2 /\ c_feats c1 = c_feats c2.
Proof.
  intros w cl cl2 X y cf pc names init cnopt kw kw2 c1 c2 A1 A2 R H1 H2. destruct (fits_cut _ _ _ _ _ _ _ _ _ _ _ _ _ _ A1 A2 R H1 H2) as (df & f & p & bt & xi & a & b & x1 & x2 & F1 & F2 & C & P).
  destruct F1 as [_ _ _ _ RS1 CF1 PC1 BT1 _ _ _ _ (g1 & G1 & GG1)], F2 as [_ _ _ _ RS2 CF2 PC2 BT2 _ _ _ _ (g2 & G2 & GG2)]. exists x1, x2.
  rewrite BT1, BT2, CF1, CF2, PC1, PC2, GG1, GG2. rewrite G1 in G2. injection G2 as <-. auto 8.
Qed.
Print Assumptions C98_limits_cut_short.

Lemma dedup_prefix {A} (eqb : A -> A -> bool) a b : forall seen, Spec.prefix a b -> Spec.prefix (dedup_by eqb seen a) (dedup_by eqb seen b).
Proof.
  revert b. induction a as [|x a IH]; intros b seen (s & ->); cbn [dedup_by app]; [eexists; reflexivity|]. destruct (existsb _ _); [apply IH, prefix_app|].
  match goal with |- Spec.prefix (_ :: dedup_by _ ?S _) _ => destruct (IH (a ++ s) S (prefix_app _ _)) as (t & E); rewrite E; exists t; reflexivity end.
Qed.
Lemma sel_prefix a b : Spec.prefix a b -> Spec.prefix (selected_features a) (selected_features b).
Proof. intros (t & ->). apply dedup_prefix. rewrite flat_map_app. eexists; reflexivity. Qed.
(** ... so on data that the larger model accepts, the stricter one answers too, and whatever it says yes to, the larger one does too *)
Theorem C98_predictions_grow : forall w cl cl2 X y cf pc names init cnopt kw kw2 f vs ix c1 c2 sel bt Z znames fr,
  c_alg cl = IREP_ -> c_alg cl2 = IREP_ -> world_ok w -> training_input X y cf names f vs ix -> NoDup ix ->
  let h := hyper_of cl kw in
  (0 <= h_prune h)%Q -> (h_prune h <= 1)%Q -> (h_nbins h = None \/ exists n, h_nbins h = Some n /\ (0 <= n)%Z) -> relaxed h (hyper_of cl2 kw2) ->
  fit w cl X y cf pc names init cnopt kw = (c1, Ok tt) -> fit w cl2 X y cf pc names init cnopt kw2 = (c2, Ok tt) -> c_sel c2 = Some sel -> c_bt c2 = Some bt ->
  prediction_input Z znames f fr -> good_frame fr -> frows fr <> [] -> distinct_labels fr -> binnable bt fr f -> (forall g, In g sel -> usable fr f g) ->
  exists p1 p2, clf_predict c1 Z znames = (c1, Ok p1) /\ clf_predict c2 Z znames = (c2, Ok p2) /\ Forall2 (fun a b => a = true -> b = true) p1 p2.
Proof.
  intros w cl cl2 X y cf pc names init cnopt kw kw2 f vs ix c1 c2 sel bt Z znames fr A1 A2 WO T ND h P0 P1 NB R H1 H2 SE BT PI G NE DL BN US. subst h.
  destruct (fits_cut _ _ _ _ _ _ _ _ _ _ _ _ _ _ A1 A2 R H1 H2) as (df & f' & p & bt' & xi & a & b & x1 & x2 & F1 & F2 & [C _] & P).
  destruct F1 as [_ _ _ _ RS1 _ _ BT1 SE1 _ _ _ _], F2 as [_ _ _ _ RS2 _ _ BT2 SE2 _ _ _ _]. rewrite SE2 in SE. injection SE as <-. rewrite BT2 in BT. injection BT as ->.
  destruct (C55_fitted_predict_partial _ _ _ _ _ _ _ _ _ _ _ _ _ _ x1 _ bt Z znames fr WO T ND P0 P1 NB H1 RS1 SE1 BT1 PI G NE DL BN) as (p1 & E1 & Q1).
  { intros g I. apply US. eapply prefix_In; [apply (sel_prefix _ _ C)|exact I]. }
  rewrite (rx_prune _ _ R) in P0, P1. rewrite (rx_nbins _ _ R) in NB.
  destruct (C55_fitted_predict_partial _ _ _ _ _ _ _ _ _ _ _ _ _ _ x2 _ bt Z znames fr WO T ND P0 P1 NB H2 RS2 SE2 BT2 PI G NE DL BN US) as (p2 & E2 & Q2).
  exists p1, p2. do 2 (split; auto). clear - Q1 Q2 P. revert p2 Q2. induction Q1 as [|rw u l p1 H F IH]; intros p2 F2; inversion F2; subst; constructor; auto.
  intros K. apply H in K. match goal with H : _ <-> some_holds _ _ _ (rs_rules x2) |- _ => apply H end. unfold some_holds in *. destruct K as (r & I & K). exists r. split; auto. eapply prefix_In; eauto.
Qed.
Print Assumptions C98_predictions_grow.

(** ** max_rules exactly *)
(** different feature=value pairs of the table print differently *)
Definition told_apart (df : frame) : Prop := forall f g r1 r2 v u, In f (fcols df) -> In g (fcols df) -> In r1 (frows df) -> In r2 (frows df) ->
  value_at (fcols df) r1 f v -> value_at (fcols df) r2 g u -> py_str f ++ $"=" ++ py_str v = py_str g ++ $"=" ++ py_str u -> f = g /\ (v = u \/ py_eq v u = true).
Lemma same_text_sat df cf s r rw : told_apart df -> (forall c, In c (conds s) -> from_data df cf c) -> (forall c, In c (conds r) -> from_data df cf c) -> rule_eqb s r = true ->
  sat_rule (fcols df) rw r -> sat_rule (fcols df) rw s.
Proof.
  intros TA DS DR E S c I. apply rule_eqb_iff in E. destruct E as (_ & E & _). assert (K : In (cond_str c) (cond_strs r)) by (apply E; apply in_map; auto).
  apply in_map_iff in K. destruct K as (d & T & J). destruct (DS c I) as (F1 & _ & r1 & I1 & V1). destruct (DR d J) as (F2 & _ & r2 & I2 & V2).
  destruct (TA _ _ _ _ _ _ F2 F1 I2 I1 V2 V1 T) as [FE VE]. destruct (S d J) as (w & W & WE). exists w. rewrite <- FE. split; auto. destruct VE as [<-|VE]; auto. eapply py_eq_trans; eauto.
Qed.
Lemma dups_none H l : forall seen, (forall a r b, l = a ++ r :: b -> forall s, In s (seen ++ a) -> rule_eqb s r = false) -> remove_dups_from H seen l = l.
Proof.
  induction l as [|r l IH]; intros seen K; cbn [remove_dups_from]; [reflexivity|].
  assert (N : in_set H seen r = false).
  { apply Bool.not_true_iff_false. intros C. apply in_set_iff in C. destruct C as (s & I & _ & E). rewrite (K [] r l eq_refl s) in E; [discriminate|]. rewrite app_nil_r. exact I. }
  rewrite N. f_equal. apply IH. intros a q b -> s I. apply (K (r :: a) q b eq_refl). rewrite <- app_assoc in I. exact I.
Qed.
Lemma firstn_eq {A} (a l : list A) : Spec.prefix a l -> firstn (length a) l = a.
Proof. intros P. symmetry. apply prefix_is_firstn in P. tauto. Qed.
Lemma count_firstn k l : count_conds (firstn k l) <= count_conds l.
Proof. rewrite <- (firstn_skipn k l) at 2. rewrite count_conds_app. lia. Qed.
Lemma firstn_prefix {A} k (l : list A) : Spec.prefix (firstn k l) l.
Proof. exists (skipn k l). symmetry. apply firstn_skipn. Qed.
Lemma trim_firstn m k l : trim_conds m (firstn k l) = firstn k (trim_conds m l).
Proof.
  destruct m as [m|]; [|reflexivity]. destruct (Z_lt_le_dec m 0) as [K|K]; [rewrite !trim_neg by auto; destruct k; reflexivity|].
  destruct (trim_conds_spec m (firstn k l) K) as (P1 & C1 & M1). destruct (trim_conds_spec m l K) as (P2 & C2 & M2).
  assert (Q1 := prefix_trans _ _ _ P1 (firstn_prefix k l)). assert (L1 : length (trim_conds (Some m) (firstn k l)) <= length (trim_conds (Some m) l)) by (apply M2; auto).
  assert (Q2 : Spec.prefix (firstn k (trim_conds (Some m) l)) (firstn k l)). { destruct P2 as (t & P2). rewrite P2 at 2. rewrite firstn_app. eexists; reflexivity. }
  assert (L2 : length (firstn k (trim_conds (Some m) l)) <= length (trim_conds (Some m) (firstn k l))). { apply M1; auto. pose proof (count_firstn k (trim_conds (Some m) l)). lia. }
  assert (L3 : length (trim_conds (Some m) (firstn k l)) <= length (firstn k (trim_conds (Some m) l))).
  { rewrite firstn_length. apply prefix_length in P1. rewrite firstn_length in P1. lia. }
  pose proof (prefix_is_firstn _ _ P1) as [E1 _]. pose proof (prefix_is_firstn _ _ Q2) as [E2 _]. rewrite E1, E2. f_equal. lia.
Qed.
Lemma stats_conds alpha df f p l l' : mapM (rule_class_stats alpha df f p) l = Ok l' -> Forall2 same_conds l' l.
Proof.
  intros H. apply mapM_Ok in H. induction H as [|r r' l l' E F IH]; constructor; auto. unfold rule_class_stats in E. repeat (binv E). injection E as <-. reflexivity.
Qed.
(** C98. With no initial model, and on a table whose feature=value pairs print differently, IREP with max_rules=m learns exactly the first m rules of the model it learns without max_rules. *)
Theorem C98_max_rules_exact : forall w cl cl2 X y cf pc names cnopt kw kw2 f vs ix c1 c2 x1 x2 m,
  c_alg cl = IREP_ -> c_alg cl2 = IREP_ -> world_ok w -> training_input X y cf names f vs ix -> NoDup ix ->
  let h := hyper_of cl kw in let h' := hyper_of cl2 kw2 in
  (0 <= h_prune h)%Q -> (h_prune h <= 1)%Q -> (h_nbins h = None \/ exists n, h_nbins h = Some n /\ (0 <= n)%Z) ->
  relaxed h h' -> h_max_rules h = Some m -> (0 <= m)%Z -> h_max_rules h' = None -> h_max_total_conds h = h_max_total_conds h' -> h_min_ruleset_samples h = h_min_ruleset_samples h' ->
  fit w cl X y cf pc names MNone cnopt kw = (c1, Ok tt) -> fit w cl2 X y cf pc names MNone cnopt kw2 = (c2, Ok tt) -> c_rs c1 = Some x1 -> c_rs c2 = Some x2 ->
  (forall table bt binned_table, training_df X y f names = Ok table -> c_bt c2 = Some bt -> transform bt table = Ok binned_table -> told_apart binned_table) ->
  rs_rules x1 = firstn (Z.to_nat m) (rs_rules x2).
Proof.
  intros w cl cl2 X y cf pc names cnopt kw kw2 f vs ix c1 c2 x1 x2 m A1 A2 WO T ND h h' P0 P1 NB R M M0 M' TO SA H1 H2 RS1 RS2 TA. subst h h'.
  destruct (fits_cut _ _ _ _ _ _ _ _ _ _ _ _ _ _ A1 A2 R H1 H2) as (df & f0 & p & bt & xi & a & b & y1 & y2 & F1 & F2 & C & _).
  destruct (fit_trained _ _ _ _ _ _ _ _ _ _ _ _ _ _ WO T ND P0 P1 NB H1) as (df' & df0 & p0 & bt' & xi' & a' & z1 & xx & pp & nn & p' & n' & F1' & G & L & HC & TD & TR & ST).
  pose proof (ft_pre _ _ _ _ _ _ _ _ _ _ _ _ _ _ _ _ _ _ F1) as E. rewrite (ft_pre _ _ _ _ _ _ _ _ _ _ _ _ _ _ _ _ _ _ F1') in E. injection E as <- <- <- <-. clear F1'.
  destruct F1 as [_ I1 T1 N1 Q1 _ _ B1 _ _ _ _ _], F2 as [_ _ T2 N2 Q2 _ _ B2 _ _ _ _ _]. rewrite RS1 in Q1. injection Q1 as ->. rewrite RS2 in Q2. injection Q2 as ->. cbn in I1. injection I1 as <-.
  rewrite A1 in T1, N1. rewrite A2 in T2, N2. cbn [train] in T1, T2. specialize (TA df0 bt' df' TD B2 TR).
  assert (STb : setting (w_env w) (hyper_of cl2 kw2) df' f p0 xx pp nn p' n').
  { destruct ST as [S1 S2 S3 S4 S5 S6 S7 S8 S9]. rewrite (rx_prune _ _ R) in S2, S3. constructor; auto. }
  assert (EA : rs_rules a = firstn (Z.to_nat m) (rs_rules b)).
  { destruct C as [PF C]. pose proof (C30_irep_max_rules _ _ _ _ _ _ _ _ _ _ _ _ _ _ ST M T1) as LE. cbn [rs_rules Ruleset_ length] in LE.
    assert (LA : length (rs_rules a) <= Z.to_nat m) by lia. destruct C as [C|(n & C & C')].
    - rewrite <- C. symmetry. apply firstn_all2. exact LA.
    - assert (LB : (m <= Z.of_nat (length (rs_rules a)))%Z).
      { destruct C as [(k & K1 & K2)|[(k & K1 & K2)|(k & K1 & K2)] ].
        - rewrite M in K1. injection K1 as <-. exact K2.
        - exfalso. apply C'. right. left. exists k. rewrite <- TO. auto.
        - exfalso. apply C'. right. right. exists k. rewrite <- SA. auto. }
      replace (Z.to_nat m) with (length (rs_rules a)) by lia. symmetry. apply firstn_eq. exact PF. }
  destruct (irep_works STb _ _ _ T2) as (new & Q & _ & K). cbn [rs_rules Ruleset_ app] in Q. rewrite <- Q in K. clear Q new.
  assert (FD : forall r c, In r (rs_rules b) -> In c (conds r) -> from_data df' f c).
  { intros r c. exact (train_from_data IREP_ _ _ _ _ _ _ _ _ _ _ _ _ r c STb T2). }
  cbn [finish] in N1, N2. rewrite <- (rx_alpha _ _ R) in N2. binv N1. injection N1 as <-. binv N2. injection N2 as <-. unfold dedupe_trim, set_rules. cbn [rs_rules].
  apply recalibrate_rules in E, E0. rewrite TO.
  assert (EV : rs_rules v = firstn (Z.to_nat m) (rs_rules v0)).
  { assert (PF : Spec.prefix (rs_rules v) (rs_rules v0)) by (apply (mapM_prefix _ _ _ _ _ (firstn_prefix (Z.to_nat m) (rs_rules b))) with (2 := E0); rewrite <- EA; exact E).
    pose proof (stats_conds _ _ _ _ _ _ E) as L1. pose proof (stats_conds _ _ _ _ _ _ E0) as L2. apply Forall2_length in L1, L2. rewrite EA, firstn_length in L1.
    apply prefix_is_firstn in PF. destruct PF as [PF _]. rewrite PF at 1. rewrite L1, <- L2. destruct (Nat.le_gt_cases (Z.to_nat m) (length (rs_rules v0))).
    - rewrite Nat.min_l by auto. reflexivity.
    - rewrite Nat.min_r by lia. rewrite !firstn_all2 by lia. reflexivity. }
  assert (DN : forall l, Spec.prefix l (rs_rules v0) -> remove_duplicates (e_hash (w_env w)) l = l).
  { intros l PF. apply dups_none. intros u r t -> s I. cbn [app] in I. apply Bool.not_true_iff_false. intros EQ. destruct PF as (t' & PF). rewrite <- app_assoc in PF. cbn [app] in PF.
    pose proof (works_conds _ _ _ _ _ (stats_conds _ _ _ _ _ _ E0) K) as K'. destruct (K' u r (t ++ t') PF) as (rw & _ & _ & SR & NS). apply (NS s I).
    assert (FV : forall r c, In r (rs_rules v0) -> In c (conds r) -> from_data df' f c).
    { intros r0 c I0 J. pose proof (Forall2_In_l _ _ _ _ (stats_conds _ _ _ _ _ _ E0) I0) as (r1 & I1 & S1). unfold same_conds in S1. rewrite S1 in J. eauto. }
    apply (same_text_sat df' f s r rw TA); auto; intros c J; eapply FV; eauto; rewrite PF; apply in_or_app; [left; exact I|right; left; reflexivity]. }
  rewrite (DN (rs_rules v)), (DN (rs_rules v0)); [|apply prefix_refl|rewrite EV; apply firstn_prefix]. rewrite EV. apply trim_firstn.
Qed.
Print Assumptions C98_max_rules_exact.

Lemma surjective_pairing_ok {A} (x : A * res unit) : snd x = Ok tt -> x = (fst x, Ok tt).
Proof. destruct x; cbn [fst snd]. intros ->. reflexivity. Qed.
(** Non-vacuity: two rules without a limit, the first of them with max_rules=1 *)
Definition cut_clf (a : alg) (m : option Z) : clf := construct a [(P_prune, VQ 0); (P_max_rules, VOpt m)].
Definition cut1 : clf := fst (fit w1 (cut_clf IREP_ (Some 1%Z)) (DRows disj_rows) (Some disj_y) (Some (s_ "class")) (Some (s_ "p")) (Some [s_ "a"; s_ "b"]) MNone true []).
Definition cut2 : clf := fst (fit w1 (cut_clf IREP_ None) (DRows disj_rows) (Some disj_y) (Some (s_ "class")) (Some (s_ "p")) (Some [s_ "a"; s_ "b"]) MNone true []).
Lemma cut_relaxed : relaxed (hyper_of (cut_clf IREP_ (Some 1%Z)) []) (hyper_of (cut_clf IREP_ None) []).
Proof. constructor; try reflexivity; intros n H; discriminate. Qed.
Lemma cut_ok1 : fit w1 (cut_clf IREP_ (Some 1%Z)) (DRows disj_rows) (Some disj_y) (Some (s_ "class")) (Some (s_ "p")) (Some [s_ "a"; s_ "b"]) MNone true [] = (cut1, Ok tt).
Proof. unfold cut1, cut2. apply surjective_pairing_ok. vm_compute. reflexivity. Qed.
Lemma cut_ok2 : fit w1 (cut_clf IREP_ None) (DRows disj_rows) (Some disj_y) (Some (s_ "class")) (Some (s_ "p")) (Some [s_ "a"; s_ "b"]) MNone true [] = (cut2, Ok tt).
Proof. unfold cut1, cut2. apply surjective_pairing_ok. vm_compute. reflexivity. Qed.
Lemma cut_strs1 : option_map (fun x => map rule_str (rs_rules x)) (c_rs cut1) = Some [$"[a=x]"]. Proof. vm_compute. reflexivity. Qed.
Lemma cut_strs2 : option_map (fun x => map rule_str (rs_rules x)) (c_rs cut2) = Some [$"[a=x]"; $"[b=x]"]. Proof. vm_compute. reflexivity. Qed.
Lemma told_pairs df : distinct_cols (fcols df) ->
  (forall p q, In p (flat_map (fun rw => combine (fcols df) (rcells rw)) (frows df)) -> In q (flat_map (fun rw => combine (fcols df) (rcells rw)) (frows df)) ->
    py_str (fst p) ++ $"=" ++ py_str (snd p) = py_str (fst q) ++ $"=" ++ py_str (snd q) -> p = q) -> told_apart df.
Proof.
  intros D H. assert (K : forall f rw v, In f (fcols df) -> In rw (frows df) -> value_at (fcols df) rw f v -> In (f, v) (flat_map (fun rw => combine (fcols df) (rcells rw)) (frows df))).
  { intros f rw v F I (j & c & J & E & V). apply in_flat_map. exists rw. split; auto. apply In_nth_error in F. destruct F as (i & F). 
    assert (i = j) as -> by (apply (D i j f c F J); rewrite py_eq_sym; exact E).
    rewrite J in F. injection F as ->. clear - J V. revert j J V. generalize (fcols df) (rcells rw). induction l as [|a l IH]; intros l0 [|j] J V; try discriminate; destruct l0 as [|b l0]; try discriminate; cbn in *.
    - injection J as ->. injection V as ->. auto.
    - right. eapply IH; eauto. }
  intros f g r1 r2 v u F G I1 I2 V1 V2 E. specialize (H (f, v) (g, u) (K _ _ _ F I1 V1) (K _ _ _ G I2 V2) E). injection H as -> ->. auto.
Qed.
Lemma cut_told : forall table bt binned_table, training_df (DRows disj_rows) (Some disj_y) (s_ "class") (Some [s_ "a"; s_ "b"]) = Ok table -> c_bt cut2 = Some bt ->
  transform bt table = Ok binned_table -> told_apart binned_table.
Proof.
  intros t bt b TD BT TR. vm_compute in TD. injection TD as <-. vm_compute in BT. injection BT as <-. vm_compute in TR. injection TR as <-. apply told_pairs.
  - apply good_frameb_ok. reflexivity.
  - cbn [flat_map frows fcols rcells combine app]. intros p q P Q. repeat (destruct P as [<-|P]; [|]); try (destruct P; fail); repeat (destruct Q as [<-|Q]; [|]); try (destruct Q; fail); intros E; try reflexivity; discriminate E.
Qed.
Lemma cut_says1 : snd (clf_predict cut1 (DFrame disj_fr) None) = Ok [true; true; false; false; false; false]. Proof. vm_compute. reflexivity. Qed.
Lemma cut_says2 : snd (clf_predict cut2 (DFrame disj_fr) None) = Ok [true; true; true; true; false; false]. Proof. vm_compute. reflexivity. Qed.
Lemma cut_sel : c_sel cut2 = Some [s_ "a"; s_ "b"]. Proof. vm_compute. reflexivity. Qed.
Lemma cut_bt : c_bt cut2 = Some (mkbt (Some []) []). Proof. vm_compute. reflexivity. Qed.
Opaque cut1 cut2.
Example C98_cut_nonvacuous : exists x1 x2, c_rs cut1 = Some x1 /\ c_rs cut2 = Some x2 /\ Spec.prefix (rs_rules x1) (rs_rules x2) /\
  map rule_str (rs_rules x1) = [$"[a=x]"] /\ map rule_str (rs_rules x2) = [$"[a=x]"; $"[b=x]"].
Proof.
  destruct (C98_limits_cut_short w1 (cut_clf IREP_ (Some 1%Z)) (cut_clf IREP_ None) _ _ _ _ _ _ _ _ _ _ _ eq_refl eq_refl cut_relaxed cut_ok1 cut_ok2)
    as (x1 & x2 & R1 & R2 & P & _). exists x1, x2. do 3 (split; auto). pose proof cut_strs1 as S1. pose proof cut_strs2 as S2. rewrite R1 in S1. rewrite R2 in S2. cbn [option_map] in S1, S2. injection S1 as S1. injection S2 as S2. auto.
Qed.
Example C98_exact_nonvacuous : forall x1 x2, c_rs cut1 = Some x1 -> c_rs cut2 = Some x2 -> rs_rules x1 = firstn 1 (rs_rules x2).
Proof.
  intros x1 x2 R1 R2. change 1 with (Z.to_nat 1).
  apply (C98_max_rules_exact w1 (cut_clf IREP_ (Some 1%Z)) (cut_clf IREP_ None) (DRows disj_rows) (Some disj_y) (Some (s_ "class")) (Some (s_ "p")) (Some [s_ "a"; s_ "b"]) true [] []
    (s_ "class") (y_vals disj_y) [0; 1; 2; 3; 4; 5] cut1 cut2 x1 x2 1%Z);
  [reflexivity|reflexivity|exact w1_ok|exact disj_input| |discriminate|discriminate| |exact cut_relaxed|reflexivity|discriminate|reflexivity|reflexivity|reflexivity|exact cut_ok1|exact cut_ok2|exact R1|exact R2|exact cut_told].
  - repeat constructor; cbn; intuition discriminate.
  - right. eexists. split; [reflexivity|discriminate].
Qed.
Example C98_grow_nonvacuous : exists p1 p2, clf_predict cut1 (DFrame disj_fr) None = (cut1, Ok p1) /\ clf_predict cut2 (DFrame disj_fr) None = (cut2, Ok p2) /\
  Forall2 (fun a b => a = true -> b = true) p1 p2 /\ p1 = [true; true; false; false; false; false] /\ p2 = [true; true; true; true; false; false].
Proof.
  destruct (C98_predictions_grow w1 (cut_clf IREP_ (Some 1%Z)) (cut_clf IREP_ None) (DRows disj_rows) (Some disj_y) (Some (s_ "class")) (Some (s_ "p")) (Some [s_ "a"; s_ "b"]) MNone true [] []
    (s_ "class") (y_vals disj_y) [0; 1; 2; 3; 4; 5] cut1 cut2 [s_ "a"; s_ "b"] (mkbt (Some []) []) (DFrame disj_fr) None disj_fr) as (p1 & p2 & E1 & E2 & F);
  [reflexivity|reflexivity|exact w1_ok|exact disj_input| |discriminate|discriminate| |exact cut_relaxed|exact cut_ok1|exact cut_ok2|exact cut_sel|exact cut_bt| | | | | | |].
  - repeat constructor; cbn; intuition discriminate.
  - right. eexists. split; [reflexivity|discriminate].
  - apply predict_plain; [reflexivity|apply table_frame].
  - apply good_frameb_ok. reflexivity.
  - discriminate.
  - repeat constructor; cbn; intuition discriminate.
  - intros g b (l & g' & E & I & _). cbn in E. injection E as <-. destruct I.
  - intros g [<-|[<-|[] ] ]; (split; [eexists; split; [|apply py_eq_refl; discriminate]; cbn; auto|reflexivity]).
  - exists p1, p2. do 3 (split; auto). pose proof cut_says1 as S1. pose proof cut_says2 as S2. rewrite E1 in S1. rewrite E2 in S2. cbn [snd] in S1, S2. injection S1 as ->. injection S2 as ->. auto.
Qed.
Transparent cut1 cut2.

(** It is about IREP only: with RIPPER a limit can change the first rule. max_rules=1: [[a=y^b=x]]; without it: [[a=y]] *)
Definition reshaped_rows : list (list pyval) := [[s_ "z"; s_ "z"]; [s_ "x"; s_ "x"]; [s_ "y"; s_ "x"]; [s_ "y"; s_ "z"]; [s_ "y"; s_ "y"]; [s_ "x"; s_ "z"]; [s_ "y"; s_ "z"]].
Definition reshaped_y : ydata := YList [s_ "n"; s_ "n"; s_ "p"; s_ "n"; s_ "p"; s_ "n"; s_ "n"].
Definition reshaped_clf (m : option Z) : clf := construct RIPPER_ [(P_prune, VQ (1 # 3)); (P_max_rules, VOpt m)].
Definition reshaped_fit (m : option Z) : clf * res unit :=
  fit w1 (reshaped_clf m) (DRows reshaped_rows) (Some reshaped_y) (Some (s_ "class")) (Some (s_ "p")) (Some [s_ "a"; s_ "b"]) MNone true [].
Theorem C98_ripper_refuted : world_ok w1 /\ relaxed (hyper_of (reshaped_clf (Some 1%Z)) []) (hyper_of (reshaped_clf None) []) /\
  snd (reshaped_fit (Some 1%Z)) = Ok tt /\ snd (reshaped_fit None) = Ok tt /\
  exists x1 x2, c_rs (fst (reshaped_fit (Some 1%Z))) = Some x1 /\ c_rs (fst (reshaped_fit None)) = Some x2 /\
    map rule_str (rs_rules x1) = [$"[a=y^b=x]"] /\ map rule_str (rs_rules x2) = [$"[a=y]"] /\ ~ Spec.prefix (map conds (rs_rules x1)) (map conds (rs_rules x2)).
Proof.
  split; [exact w1_ok|]. split; [constructor; try reflexivity; intros n H; discriminate|]. split; [vm_compute; reflexivity|]. split; [vm_compute; reflexivity|].
  eexists. eexists. split; [vm_compute; reflexivity|]. split; [vm_compute; reflexivity|]. split; [reflexivity|]. split; [reflexivity|]. intros (t & H). discriminate H.
Qed.
Print Assumptions C98_ripper_refuted.
