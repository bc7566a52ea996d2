(** * ProbaFacts.v : class statistics and probabilities (C40-C44) *)
From Verif Require Export ProbaSpec ScoreFacts.
From Coq Require Import Qfield Lqa.
Open Scope nat_scope.

Lemma smoothed_ok alpha a b : (0 < alpha)%Q ->
  exists p, smoothed alpha a b = Ok p /\
    (fst p == (qn a + alpha) / (qn (a + b) + 2 * alpha))%Q /\ (snd p == (qn b + alpha) / (qn (a + b) + 2 * alpha))%Q.
Proof.
  intros H. unfold smoothed. assert (G := qn_nonneg (a + b)).
  destruct (Qeq_bool _ 0) eqn:E.
  - apply Qeq_bool_eq in E. exfalso. lra.
  - apply Qeq_bool_neq in E. eexists; split; [reflexivity|]. cbn [fst snd].
    rewrite (Qmult_comm alpha 2) in *. split; reflexivity.
Qed.
Lemma smoothed_zero : smoothed 0 0 0 = Err ZeroDivisionError.
Proof. reflexivity. Qed.

Lemma smooth_probabilities alpha a b p : (0 < alpha)%Q ->
  (fst p == (qn a + alpha) / (qn (a + b) + 2 * alpha))%Q -> (snd p == (qn b + alpha) / (qn (a + b) + 2 * alpha))%Q ->
  probabilities p.
Proof.
  intros H E1 E2. assert (Ga := qn_nonneg a). assert (Gb := qn_nonneg b). assert (Gab := qn_plus a b).
  assert (D : (0 < qn (a + b) + 2 * alpha)%Q) by lra.
  assert (P1 : (0 < fst p)%Q).
  { rewrite E1. apply Qlt_shift_div_l; auto. lra. }
  assert (P2 : (0 < snd p)%Q).
  { rewrite E2. apply Qlt_shift_div_l; auto. lra. }
  assert (S : (fst p + snd p == 1)%Q).
  { rewrite E1, E2. rewrite Gab. field. lra. }
  unfold probabilities. repeat split; auto; lra.
Qed.

Lemma stats_probabilities alpha cols cf pc rows s : (0 < alpha)%Q -> stats_of_rows alpha cols cf pc rows s -> probabilities (st_smooth s).
Proof.
  intros H (pos & neg & P & N & _ & _ & _ & E1 & E2).
  assert (L : length rows = length neg + length pos).
  { clear E1 E2. revert neg N. induction P as [|x l l' Hx P IH|x l l' Hx P IH]; intros neg N; inversion N; subst; cbn; try contradiction; auto;
    rewrite (IH _ ltac:(eassumption)); cbn; lia. }
  rewrite L in *. eapply smooth_probabilities; eauto.
Qed.

Lemma rate_eq x total : total <> 0 -> (rate x total == qn x / qn total)%Q.
Proof. intros H. unfold rate. destruct (Nat.eqb_spec total 0); [contradiction|]. reflexivity. Qed.
Lemma rate_0 x : rate x 0 = 0%Q.
Proof. reflexivity. Qed.

(** a count of positives together with its complement describes the rows *)
Lemma stats_ok alpha fr cf pc rows : (0 < alpha)%Q -> good_frame fr -> column_present fr cf -> incl rows (frows fr) ->
  exists p n sm, num_pos (with_rows fr rows) cf pc = Ok p /\ num_neg (with_rows fr rows) cf pc = Ok n /\ p + n = length rows /\
    smoothed alpha n p = Ok sm /\
    stats_of_rows alpha (fcols fr) cf pc rows
      (mkstats (n, p) (rate n (length rows), rate p (length rows)) sm).
Proof.
  intros HA [W D] C I. assert (G : good_frame (with_rows fr rows)).
  { split; auto. unfold wf_frame in *. cbn [fcols frows with_rows] in *. first [rewrite Forall_forall in *|idtac]; intros; apply W; auto. }
  destruct (pos_neg_spec (with_rows fr rows) cf pc G C) as (fp & fn & _ & _ & _ & P & N & EP & EN & L).
  destruct (smoothed_ok alpha (length (frows fn)) (length (frows fp)) HA) as (sm & S & S1 & S2).
  exists (length (frows fp)), (length (frows fn)), sm. split; auto. split; auto. cbn [frows with_rows] in L.
  split; auto. split; auto. exists (frows fp), (frows fn). cbn [st_ns st_freqs st_smooth fst snd].
  split; auto. split; auto. split; auto. rewrite (Nat.add_comm (length (frows fn))), L in S1, S2. split; [|split; [|auto]].
  - intros ->. reflexivity.
  - intros NE. assert (length rows <> 0) by (destruct rows; cbn; congruence). split; apply rate_eq; auto.
Qed.

Lemma check_features_ok fr rs : features_present fr rs -> check_features fr (selected_features rs) = Ok tt.
Proof.
  intros P. unfold check_features. replace (forallb _ _) with true; auto. symmetry. apply forallb_forall.
  intros f Hf. apply has_col_iff. unfold selected_features in Hf.
  apply dedup_by_In in Hf. apply in_flat_map in Hf. destruct Hf as (r & Hr & Hf). apply in_map_iff in Hf.
  destruct Hf as (c & <- & Hc). apply P. exists r, c; auto.
Qed.

Lemma rule_class_stats_ok alpha fr cf pc r : (0 < alpha)%Q -> good_frame fr -> features_present fr [r] -> column_present fr cf ->
  exists r' s covered, rule_class_stats alpha fr cf pc r = Ok r' /\ conds r' = conds r /\ rstats r' = Some s /\
    picks (fun rw => sat_rule (fcols fr) rw r) (frows fr) covered /\
    stats_of_rows alpha (fcols fr) cf pc covered s.
Proof.
  intros HA G P C. destruct (rule_covers_exact r fr G P) as (c & E & EC & PK).
  assert (Ec : c = with_rows fr (frows c)) by (destruct c, fr; cbn in *; subst; reflexivity).
  assert (I : incl (frows c) (frows fr)).
  { intros x Hx. clear -PK Hx. induction PK; cbn in *; auto; intuition. }
  destruct (stats_ok alpha fr cf pc (frows c) HA G C I) as (p & n & sm & N1 & N2 & L & S & ST).
  unfold rule_class_stats. rewrite E. cbn [bind]. rewrite <- Ec in N1. rewrite N1. cbn [bind].
  replace (length (frows c) - p) with n by lia. rewrite S. cbn [bind].
  eexists _, _, (frows c). split; [reflexivity|]. cbn. auto.
Qed.

Definition calibrated_on (alpha : Q) (fr : frame) (cf pc : pyval) (r r' : rule) : Prop :=
  conds r' = conds r /\ exists s covered, rstats r' = Some s /\
    picks (fun rw => sat_rule (fcols fr) rw r) (frows fr) covered /\ stats_of_rows alpha (fcols fr) cf pc covered s.

Lemma recalibrate_exact alpha rs fr cf pc : (0 < alpha)%Q -> good_frame fr -> distinct_labels fr ->
  features_present fr (rs_rules rs) -> column_present fr cf ->
  exists rs', recalibrate alpha rs fr cf pc = Ok rs' /\
    rs_possible rs' = rs_possible rs /\
    Forall2 (fun r r' => conds r' = conds r /\ exists s covered, rstats r' = Some s /\
               picks (fun rw => sat_rule (fcols fr) rw r) (frows fr) covered /\
               stats_of_rows alpha (fcols fr) cf pc covered s) (rs_rules rs) (rs_rules rs') /\
    exists s uncovered, rs_uncov rs' = Some s /\
      picks (fun rw => ~ sat_ruleset (fcols fr) rw (rs_rules rs)) (frows fr) uncovered /\
      stats_of_rows alpha (fcols fr) cf pc uncovered s.
Proof.
  intros HA G L P C. unfold recalibrate. rewrite check_features_ok by auto. cbn [bind].
  assert (M : exists rules', mapM (rule_class_stats alpha fr cf pc) (rs_rules rs) = Ok rules' /\
    Forall2 (calibrated_on alpha fr cf pc) (rs_rules rs) rules').
  { assert (P' : forall r, In r (rs_rules rs) -> features_present fr [r]).
    { intros r Hr f (r0 & c & [<-|[]] & Hc & ->). apply P. exists r, c; auto. }
    clear P. induction (rs_rules rs) as [|r l IH]; cbn [mapM]; [eexists; split; [reflexivity|constructor]|].
    destruct (rule_class_stats_ok alpha fr cf pc r HA G) as (r' & s & cov & E & EC & ES & PK & ST); auto; [apply P'; cbn; auto|].
    rewrite E. cbn [bind]. destruct IH as (l' & -> & F); [intros; apply P'; cbn; auto|]. cbn [bind].
    eexists; split; [reflexivity|]. constructor; auto. split; auto. exists s, cov; auto. }
  destruct M as (rules' & -> & F). cbn [bind].
  assert (GD := G). destruct GD as [W D].
  rewrite rs_covers_eq. apply all_present_iff in P. rewrite P, orb_true_r. cbn [bind frows with_rows].
  rewrite (drop_labels_covered (frows fr) _ (sat_any (fcols fr) (rs_rules rs))); auto; [|intros; apply covered_rows_In].
  set (unc := filter _ _).
  assert (I : incl unc (frows fr)) by (intros x Hx; apply filter_In in Hx; tauto).
  destruct (stats_ok alpha fr cf pc unc HA G C I) as (p & n & sm & N1 & N2 & LL & S & ST).
  rewrite N2. cbn [bind]. replace (length unc - n) with p by lia. rewrite S. cbn [bind].
  eexists; split; [reflexivity|]. cbn [rs_possible rs_rules rs_uncov]. split; auto. split; [exact F|].
  eexists _, unc. split; [reflexivity|]. split; auto. apply picks_filter. intros rw _. rewrite negb_true_iff, <- not_true_iff_false.
  rewrite sat_any_iff by auto. tauto.
Qed.

Lemma recalibrate_conds alpha rs fr cf pc rs' : recalibrate alpha rs fr cf pc = Ok rs' ->
  map conds (rs_rules rs') = map conds (rs_rules rs).
Proof.
  unfold recalibrate. intros H. binv H. binv H. rename v0 into rules'. rename E0 into M. binv H. binv H. binv H.
  injection H as <-. cbn [rs_rules]. clear -M. revert rules' M. induction (rs_rules rs) as [|r l IH]; cbn [mapM]; intros rules' M.
  - injection M as <-; auto.
  - binv M. rename v into r'. binv M. injection M as <-. cbn. f_equal; auto.
    unfold rule_class_stats in E. binv E. binv E. binv E. injection E as <-. reflexivity.
Qed.

Lemma recalibrate_calibrated alpha rs fr cf pc : (0 < alpha)%Q -> good_frame fr -> distinct_labels fr ->
  features_present fr (rs_rules rs) -> column_present fr cf ->
  exists rs', recalibrate alpha rs fr cf pc = Ok rs' /\ calibrated rs'.
Proof.
  intros HA G L P C. destruct (recalibrate_exact alpha rs fr cf pc HA G L P C) as (rs' & E & _ & F & (s & unc & ES & _ & ST)).
  exists rs'; split; auto. split.
  - exists s; split; auto. eapply stats_probabilities; eauto.
  - intros r Hr. clear -F Hr HA. induction F as [|x y l l' H F IH]; [contradiction|].
    destruct Hr as [<-|Hr]; auto. destruct H as (_ & s & cov & E & _ & ST). exists s; split; auto. eapply stats_probabilities; eauto.
Qed.

(** ** the mean *)
Lemma qsum_map_fst l : (qsum (map fst l) == fold_right (fun (p : Q * Q) s => fst p + s) 0 l)%Q.
Proof. induction l as [|p l IH]; cbn [map qsum fold_right]; [reflexivity|]. unfold qsum in IH. rewrite IH. reflexivity. Qed.
Lemma qsum_map_snd l : (qsum (map snd l) == fold_right (fun (p : Q * Q) s => snd p + s) 0 l)%Q.
Proof. induction l as [|p l IH]; cbn [map qsum fold_right]; [reflexivity|]. unfold qsum in IH. rewrite IH. reflexivity. Qed.

Lemma sums_total (l : list (Q * Q)) : Forall probabilities l ->
  (0 <= qsum (map fst l) /\ 0 <= qsum (map snd l) /\ qsum (map fst l) + qsum (map snd l) == qn (length l))%Q /\
  (l <> [] -> 0 < qsum (map fst l) /\ 0 < qsum (map snd l))%Q.
Proof.
  induction 1 as [|p l H F IH]; cbn [map qsum fold_right length].
  - split; [|congruence]. repeat split; first [apply Qle_refl|reflexivity].
  - fold (qsum (map fst l)) (qsum (map snd l)). destruct IH as [(A & B & C) _]. destruct H as (H1 & H2 & H3 & H4 & H5).
    assert (Z := qn_plus 1 (length l)). change (1 + length l) with (S (length l)) in Z. change (qn 1) with 1%Q in Z.
    split; [|intros _]; repeat split; lra.
Qed.

Lemma weighted_avg_spec l : l <> [] -> Forall probabilities l -> mean_of l (weighted_avg l) /\ probabilities (weighted_avg l).
Proof.
  intros NE F. destruct (sums_total l F) as [(A & B & C) D]. specialize (D NE). destruct D as [D1 D2].
  assert (QN : (0 < qn (length l))%Q) by (apply qn_pos; destruct l; cbn; [congruence|lia]).
  unfold weighted_avg. destruct (Qeq_bool _ 0) eqn:E; [apply Qeq_bool_eq in E; lra|]. clear E.
  set (a := qsum (map fst l)) in *. set (b := qsum (map snd l)) in *.
  split.
  - split; auto. cbn [fst snd]. rewrite <- qsum_map_fst, <- qsum_map_snd. fold a b. rewrite <- C. split; field; lra.
  - assert (S0 : (0 < a + b)%Q) by lra. assert (SS : (a / (a + b) + b / (a + b) == 1)%Q) by (field; lra).
    assert (X : (0 < a / (a + b))%Q) by (apply Qlt_shift_div_l; lra).
    assert (Y : (0 < b / (a + b))%Q) by (apply Qlt_shift_div_l; lra).
    unfold probabilities; cbn [fst snd]. repeat split; lra.
Qed.

Lemma weighted_avg_one p : probabilities p -> eq_pair (weighted_avg [p]) p.
Proof.
  intros H. destruct (weighted_avg_spec [p]) as [(_ & M1 & M2) _]; [congruence|auto|].
  cbn [length fold_right] in M1, M2. change (qn 1) with 1%Q in M1, M2. split; lra.
Qed.

Lemma mapM_smooth (l : list rule) : (forall r, In r l -> exists s, rstats r = Some s /\ probabilities (st_smooth s)) ->
  exists ps, mapM rule_smooth l = Ok ps /\ Forall2 (fun r p => exists s, rstats r = Some s /\ st_smooth s = p) l ps /\
    Forall probabilities ps.
Proof.
  induction l as [|r l IH]; cbn [mapM]; intros H; [eexists; repeat split; constructor|].
  destruct (H r) as (s & E & P); [cbn; auto|]. destruct IH as (ps & -> & F2 & F); [intros; apply H; cbn; auto|].
  unfold rule_smooth at 1. rewrite E. cbn [bind]. eexists; split; [reflexivity|]. split; constructor; eauto.
Qed.

Lemma predict_proba_exact rs fr : calibrated rs -> good_frame fr -> distinct_labels fr -> features_present fr (rs_rules rs) ->
  exists probas preds reasons unc,
    rs_predict_proba rs fr = Ok (probas, reasons) /\ rs_predict (rs_rules rs) fr = Ok preds /\
    rs_uncov rs = Some unc /\
    Forall probabilities probas /\
    Forall2 (fun rw rr => picks (sat_rule (fcols fr) rw) (rs_rules rs) rr) (frows fr) reasons /\
    Forall2 (fun (x : bool * list rule) pr =>
      (fst x = false -> snd x = [] /\ eq_pair pr (st_smooth unc)) /\
      (fst x = true -> exists ps, Forall2 (fun r p => exists s, rstats r = Some s /\ st_smooth s = p) (snd x) ps /\ mean_of ps pr))
      (combine preds reasons) probas.
Proof.
  intros [(unc & EU & PU) CR] G L P. destruct (reasons_exact (rs_rules rs) fr G L P) as (preds & reasons & E & EP & F1 & F2).
  unfold rs_predict_proba. rewrite EU, E. cbn [bind].
  assert (IR : Forall (fun rr => incl rr (rs_rules rs)) reasons).
  { clear -F1. induction F1 as [|? ? ? ? H F IH]; constructor; auto. clear -H. intros z Hz. induction H; cbn in *; auto; intuition. }
  destruct (weighted_avg_spec [st_smooth unc]) as [_ PW]; [congruence|auto|].
  assert (M : exists probas, mapM (fun x : bool * list rule => proba_row (weighted_avg [st_smooth unc]) (fst x) (snd x)) (combine preds reasons) = Ok probas /\
    Forall probabilities probas /\
    Forall2 (fun (x : bool * list rule) pr =>
      (fst x = false -> snd x = [] /\ eq_pair pr (st_smooth unc)) /\
      (fst x = true -> exists ps, Forall2 (fun r p => exists s, rstats r = Some s /\ st_smooth s = p) (snd x) ps /\ mean_of ps pr))
      (combine preds reasons) probas).
  { clear E EP F1. induction F2 as [|p rr preds reasons H F2 IH]; cbn [combine mapM].
    - eexists; repeat split; constructor.
    - inversion IR; subst. destruct IH as (probas & E & FP & F3); auto.
      unfold proba_row at 1. cbn [fst snd]. destruct p.
      + destruct (mapM_smooth rr) as (ps & -> & FF & FPs); [intros r Hr; apply CR; auto|]. cbn [bind]. rewrite E. cbn [bind].
        assert (NE : ps <> []). { intros ->. inversion FF; subst. destruct H as [_ H]. specialize (H eq_refl). discriminate. }
        destruct (weighted_avg_spec ps NE FPs) as [MO PR].
        eexists; split; [reflexivity|]. split; constructor; auto. cbn [fst snd]. split; [discriminate|]. intros _. exists ps; auto.
      + cbn [bind]. rewrite E. cbn [bind]. eexists; split; [reflexivity|]. split; constructor; auto. cbn [fst snd].
        split; [|discriminate]. intros _. split; [apply H; auto|]. apply weighted_avg_one; auto. }
  destruct M as (probas & -> & FP & F3). cbn [bind]. exists probas, preds, reasons, unc. repeat (split; auto).
Qed.

(** an uncalibrated rule that covers some row *)
Lemma predict_proba_uncalibrated rs fr r rw : good_frame fr -> distinct_labels fr -> features_present fr (rs_rules rs) ->
  In r (rs_rules rs) -> rstats r = None -> In rw (frows fr) -> sat_rule (fcols fr) rw r ->
  rs_predict_proba rs fr = Err AttributeError.
Proof.
  intros G L P Hr N Hrw S. destruct (reasons_exact (rs_rules rs) fr G L P) as (preds & reasons & E & EP & F1 & F2).
  unfold rs_predict_proba. destruct (rs_uncov rs); auto. rewrite E. cbn [bind].
  assert (M : mapM (fun x : bool * list rule => proba_row (weighted_avg [st_smooth s]) (fst x) (snd x)) (combine preds reasons) = Err AttributeError).
  { assert (MS : forall l, In r l -> mapM rule_smooth l = Err AttributeError).
    { clear -N. induction l as [|x l IH]; intros []; cbn [mapM].
      - subst. unfold rule_smooth at 1. rewrite N. auto.
      - unfold rule_smooth at 1. destruct (rstats x); auto. cbn [bind]. rewrite IH; auto. }
    assert (PR : forall p rr, proba_row (weighted_avg [st_smooth s]) p rr = Err AttributeError \/
      exists y, proba_row (weighted_avg [st_smooth s]) p rr = Ok y).
    { intros p rr. unfold proba_row. destruct p; [|eauto]. 
      assert (mapM rule_smooth rr = Err AttributeError \/ exists y, mapM rule_smooth rr = Ok y) as [-> | (y & ->)]; cbn [bind]; eauto.
      clear. induction rr as [|x l IH]; cbn [mapM]; eauto. unfold rule_smooth at 1 3. destruct (rstats x); cbn [bind]; auto.
      destruct IH as [-> | (y & ->)]; cbn [bind]; eauto. }
    clear E EP. revert preds F2. induction F1 as [|x rr rows reasons H F IH]; intros preds F2; [contradiction|].
    inversion F2 as [|p rr' preds' reasons' Hp F2']; subst. cbn [combine mapM fst snd]. destruct Hrw as [-> | Hrw].
    - assert (In r rr). { clear -H Hr S. induction H; cbn in *; auto; intuition; subst; intuition. }
      destruct p; [|destruct Hp as [Hp _]; rewrite Hp in *; auto; contradiction].
      unfold proba_row at 1. rewrite MS by auto. auto.
    - destruct (PR p rr) as [-> | (y & ->)]; auto. cbn [bind]. rewrite IH; auto. }
  rewrite M. auto.
Qed.
