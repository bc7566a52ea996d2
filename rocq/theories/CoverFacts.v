(** * CoverFacts.v : coverage and prediction *)
From Verif Require Export BaseFacts.

Definition conds_sat (cols : list pyval) (cs : list cond) (rw : row) : bool :=
  forallb (fun c => cell_eq cols (cfeat c) (cval c) rw) cs.

Lemma has_col_iff fr f : has_col fr f = true <-> column_present fr f.
Proof. unfold has_col, column_present. rewrite existsb_exists. reflexivity. Qed.

Lemma col_pos_spec cols f j : col_pos cols f = Some j ->
  exists c, nth_error cols j = Some c /\ py_eq c f = true.
Proof.
  revert j; induction cols as [|c cols IH]; cbn; intros j H; [discriminate|].
  destruct (py_eq c f) eqn:E; [injection H as <-; exists c; auto|].
  destruct (col_pos cols f) as [k|] eqn:K; cbn in H; [|discriminate]. injection H as <-. cbn. auto.
Qed.
Lemma col_pos_some cols f c : In c cols -> py_eq c f = true -> exists j, col_pos cols f = Some j.
Proof.
  induction cols as [|x cols IH]; cbn; intros Hin E; [contradiction|].
  destruct (py_eq x f) eqn:Ex; [eauto|]. destruct Hin as [->|Hin]; [congruence|].
  destruct (IH Hin E) as [j Hj]. rewrite Hj; cbn; eauto.
Qed.
Lemma col_pos_none cols f : col_pos cols f = None <-> existsb (fun c => py_eq c f) cols = false.
Proof.
  induction cols as [|x cols IH]; cbn; [tauto|]. destruct (py_eq x f); cbn; [split; congruence|].
  rewrite <- IH. destruct (col_pos cols f); cbn; split; congruence.
Qed.

Lemma cell_value_at cols f rw w : distinct_cols cols -> (cell cols f rw = Some w <-> value_at cols rw f w).
Proof.
  intros D. unfold cell, value_at. split.
  - destruct (col_pos cols f) as [j|] eqn:E; [|discriminate]. intros H.
    destruct (col_pos_spec _ _ _ E) as (c & Hc & Ec). eauto.
  - intros (j & c & Hc & Ec & Hw).
    destruct (col_pos_some cols f c (nth_error_In _ _ Hc) Ec) as (k & Hk). rewrite Hk.
    destruct (col_pos_spec _ _ _ Hk) as (d & Hd & Ed).
    assert (k = j) as -> by (eapply D; eauto; rewrite (py_eq_rewrite_r c f) by auto; auto).
    auto.
Qed.
Lemma cell_eq_sat cols c rw : distinct_cols cols -> (cell_eq cols (cfeat c) (cval c) rw = true <-> sat_cond cols rw c).
Proof.
  intros D. unfold cell_eq, sat_cond. split.
  - destruct (cell cols (cfeat c) rw) as [w|] eqn:E; [|discriminate]. intros H. exists w.
    rewrite <- cell_value_at; auto.
  - intros (w & Hw & E). rewrite <- cell_value_at in Hw by auto. rewrite Hw; auto.
Qed.
Lemma conds_sat_iff cols cs rw : distinct_cols cols -> (conds_sat cols cs rw = true <-> sat_conds cols rw cs).
Proof.
  intros D. unfold conds_sat, sat_conds. rewrite forallb_forall. split; intros H c Hc; apply cell_eq_sat; auto.
Qed.

Definition conds_present (fr : frame) (cs : list cond) : bool := forallb (fun c => has_col fr (cfeat c)) cs.

Lemma has_col_with_rows fr rs f : has_col (with_rows fr rs) f = has_col fr f.
Proof. reflexivity. Qed.
Lemma with_rows_frows fr : with_rows fr (frows fr) = fr.
Proof. destruct fr; reflexivity. Qed.

Lemma conds_cover_eq cs fr :
  conds_cover cs fr = if conds_present fr cs then Ok (with_rows fr (filter (conds_sat (fcols fr) cs) (frows fr)))
                      else Err KeyError.
Proof.
  revert fr; induction cs as [|c cs IH]; intros fr; cbn [conds_cover].
  - rewrite filter_all by auto. rewrite with_rows_frows; reflexivity.
  - unfold cond_covers, select_eq. change (conds_present fr (c :: cs)) with (has_col fr (cfeat c) && conds_present fr cs).
    destruct (has_col fr (cfeat c)) eqn:H; cbn [bind andb]; auto.
    rewrite IH. change (conds_present (with_rows fr _) cs) with (conds_present fr cs).
    destruct (conds_present fr cs); auto. f_equal. unfold with_rows; cbn [fcols frows]. f_equal.
    rewrite filter_filter. apply filter_ext; intros; reflexivity.
Qed.
Lemma rule_covers_eq r fr :
  rule_covers r fr = if conds_present fr (conds r)
                     then Ok (with_rows fr (filter (conds_sat (fcols fr) (conds r)) (frows fr))) else Err KeyError.
Proof. apply conds_cover_eq. Qed.

Lemma present_conds fr rs r : features_present fr rs -> In r rs -> conds_present fr (conds r) = true.
Proof.
  intros H Hr. unfold conds_present. rewrite forallb_forall. intros c Hc. apply has_col_iff. apply H.
  exists r, c; auto.
Qed.
Lemma not_present_conds fr rs :
  ~ features_present fr rs -> exists r, In r rs /\ conds_present fr (conds r) = false.
Proof.
  intros H. destruct (existsb (fun r => negb (conds_present fr (conds r))) rs) eqn:E.
  - apply existsb_exists in E. destruct E as (r & Hr & E). exists r. split; auto. destruct (conds_present fr (conds r)); auto.
  - exfalso. apply H. intros f (r & c & Hr & Hc & ->). apply has_col_iff.
    destruct (has_col fr (cfeat c)) eqn:F; auto. exfalso.
    assert (existsb (fun r => negb (conds_present fr (conds r))) rs = true); [|congruence].
    apply existsb_exists. exists r; split; auto. apply negb_true_iff. unfold conds_present.
    apply not_true_iff_false. rewrite forallb_forall. intros G. rewrite G in F; auto. discriminate.
Qed.

Definition sat_any (cols : list pyval) (rs : list rule) (rw : row) : bool := existsb (fun r => conds_sat cols (conds r) rw) rs.
Lemma sat_any_iff cols rs rw : distinct_cols cols -> (sat_any cols rs rw = true <-> sat_ruleset cols rw rs).
Proof.
  intros D. unfold sat_any, sat_ruleset. rewrite existsb_exists. split; intros (r & Hr & H); exists r; split; auto;
  apply conds_sat_iff; auto.
Qed.

Lemma universal_iff rs : rs_isuniversal rs = true <-> exists r, In r rs /\ conds r = [].
Proof.
  unfold rs_isuniversal. rewrite existsb_exists. split; intros (r & Hr & E); exists r; split; auto; unfold rule_isempty in *;
  destruct (conds r); auto; discriminate.
Qed.
Lemma universal_sat_any cols rs rw : rs_isuniversal rs = true -> sat_any cols rs rw = true.
Proof.
  rewrite universal_iff. intros (r & Hr & E). unfold sat_any. apply existsb_exists. exists r. rewrite E; auto.
Qed.

Definition all_present (fr : frame) (rs : list rule) : bool := forallb (fun r => conds_present fr (conds r)) rs.
Lemma all_present_iff fr rs : all_present fr rs = true <-> features_present fr rs.
Proof.
  unfold all_present. rewrite forallb_forall. split.
  - intros H f (r & c & Hr & Hc & ->). apply has_col_iff. specialize (H r Hr).
    unfold conds_present in H. rewrite forallb_forall in H. auto.
  - intros H r Hr. eapply present_conds; eauto.
Qed.

(** closed form of [rs_covers] *)
Definition covered_rows (cols : list pyval) (rs : list rule) (rows : list row) : list row :=
  if rs_isuniversal rs then rows else flat_map (fun r => filter (conds_sat cols (conds r)) rows) rs.
Lemma rs_covers_eq rs fr :
  rs_covers rs fr = if rs_isuniversal rs || all_present fr rs then Ok (with_rows fr (covered_rows (fcols fr) rs (frows fr)))
                    else Err KeyError.
Proof.
  unfold rs_covers, covered_rows. destruct (rs_isuniversal rs); cbn [orb]; [rewrite with_rows_frows; auto|].
  destruct rs as [|r0 rs0] eqn:Ers; [reflexivity|]. cbn [rs_isnull]. rewrite <- Ers. clear Ers.
  destruct (all_present fr rs) eqn:E.
  - rewrite (mapM_total _ (fun r => with_rows fr (filter (conds_sat (fcols fr) (conds r)) (frows fr)))).
    + cbn. rewrite map_map. cbn. rewrite flat_map_concat_map; auto.
    + intros r Hr. rewrite rule_covers_eq. unfold all_present in E. rewrite forallb_forall in E. rewrite E; auto.
  - assert (exists r, In r rs /\ conds_present fr (conds r) = false) as (r & Hr & Hf).
    { apply not_present_conds. rewrite <- all_present_iff. congruence. }
    rewrite (mapM_err_first _ rs r KeyError); auto.
    + rewrite rule_covers_eq, Hf; auto.
    + intros x e' Hx. rewrite rule_covers_eq. destruct (conds_present fr (conds x)); congruence.
Qed.

Lemma covered_rows_In cols rs rows rw : In rw (covered_rows cols rs rows) <-> In rw rows /\ sat_any cols rs rw = true.
Proof.
  unfold covered_rows. destruct (rs_isuniversal rs) eqn:U.
  - split; [intros H; split; auto; apply universal_sat_any; auto|tauto].
  - rewrite in_flat_map. unfold sat_any. rewrite existsb_exists. split.
    + intros (r & Hr & H). apply filter_In in H. destruct H. eauto.
    + intros (H & r & Hr & Hs). exists r; split; auto. apply filter_In; auto.
Qed.

(** what predict computes for one row, with no hypothesis on labels *)
Lemma rs_predict_eq rs fr :
  rs_predict rs fr = if rs_isuniversal rs || all_present fr rs
    then Ok (map (fun rw => existsb (fun rw' => Nat.eqb (rlab rw') (rlab rw) && sat_any (fcols fr) rs rw') (frows fr)) (frows fr))
    else Err KeyError.
Proof.
  unfold rs_predict. rewrite rs_covers_eq. destruct (rs_isuniversal rs || all_present fr rs); auto. cbn [bind with_rows frows].
  f_equal. apply map_ext_in. intros rw Hrw. apply eq_true_iff_eq. rewrite nmem_In. unfold labels. rewrite in_map_iff.
  rewrite existsb_exists. split.
  - intros (x & E & Hx). apply covered_rows_In in Hx. exists x. split; [tauto|].
    rewrite E, Nat.eqb_refl. cbn; tauto.
  - intros (x & Hx & H). rewrite andb_true_iff, Nat.eqb_eq in H. exists x. split; [tauto|].
    apply covered_rows_In. tauto.
Qed.
Lemma existsb_label fr rs rw : distinct_labels fr -> In rw (frows fr) ->
  existsb (fun rw' => Nat.eqb (rlab rw') (rlab rw) && sat_any (fcols fr) rs rw') (frows fr) = sat_any (fcols fr) rs rw.
Proof.
  intros D H. apply eq_true_iff_eq. rewrite existsb_exists. split.
  - intros (x & Hx & E). rewrite andb_true_iff, Nat.eqb_eq in E.
    assert (x = rw) as -> by (eapply (NoDup_map_inj rlab); eauto; tauto). tauto.
  - intros E. exists rw. rewrite Nat.eqb_refl; auto.
Qed.
Lemma rs_predict_distinct rs fr : distinct_labels fr ->
  rs_predict rs fr = if rs_isuniversal rs || all_present fr rs then Ok (map (sat_any (fcols fr) rs) (frows fr)) else Err KeyError.
Proof.
  intros D. rewrite rs_predict_eq. destruct (_ || _); auto. f_equal. apply map_ext_in. intros; apply existsb_label; auto.
Qed.

(** *** C01 *)
Lemma predict_is_dnf rs fr :
  good_frame fr -> distinct_labels fr -> features_present fr rs ->
  exists preds, rs_predict rs fr = Ok preds /\
    Forall2 (fun rw p => p = true <-> sat_ruleset (fcols fr) rw rs) (frows fr) preds.
Proof.
  intros [W D] L P. rewrite rs_predict_distinct by auto.
  apply all_present_iff in P. rewrite P, orb_true_r. eexists; split; eauto.
  apply Forall2_map_self. intros rw _. apply sat_any_iff; auto.
Qed.
Lemma predict_empty_ruleset fr : rs_predict [] fr = Ok (map (fun _ => false) (frows fr)).
Proof. rewrite rs_predict_eq. cbn. f_equal. apply map_ext_in; intros. apply not_true_iff_false. rewrite existsb_exists.
  intros (x & _ & E). rewrite andb_false_r in E; discriminate. Qed.
Lemma predict_empty_rule rs fr r : In r rs -> conds r = [] -> rs_predict rs fr = Ok (map (fun _ => true) (frows fr)).
Proof.
  intros Hr E. rewrite rs_predict_eq. assert (U : rs_isuniversal rs = true) by (apply universal_iff; eauto).
  rewrite U; cbn. f_equal. apply map_ext_in. intros rw Hrw. apply existsb_exists. exists rw.
  rewrite Nat.eqb_refl, universal_sat_any; auto.
Qed.

(** *** C02 *)
Lemma sat_any_cells cols rs rw rw' : rcells rw = rcells rw' -> sat_any cols rs rw = sat_any cols rs rw'.
Proof. intros E. unfold sat_any, conds_sat, cell_eq, cell. rewrite E. reflexivity. Qed.
Lemma predict_relabel rs fr fr' : same_cells fr fr' -> distinct_labels fr -> distinct_labels fr' ->
  rs_predict rs fr = rs_predict rs fr'.
Proof.
  intros [C R] D D'. rewrite !rs_predict_distinct by auto. unfold all_present, conds_present, has_col. rewrite C.
  destruct (_ || _); auto. f_equal. clear D D'. revert R. generalize (frows fr'). induction (frows fr) as [|a l IH]; intros l' R;
  destruct l' as [|b l']; try discriminate; auto. cbn in *. injection R as R1 R2. f_equal; auto. apply sat_any_cells; auto.
Qed.
Lemma predict_by_label rs fr : good_frame fr -> features_present fr rs ->
  exists preds, rs_predict rs fr = Ok preds /\
    Forall2 (fun rw p => p = true <-> exists rw', In rw' (frows fr) /\ rlab rw' = rlab rw /\ sat_ruleset (fcols fr) rw' rs)
            (frows fr) preds.
Proof.
  intros [W D] P. rewrite rs_predict_eq. apply all_present_iff in P. rewrite P, orb_true_r. eexists; split; eauto.
  apply Forall2_map_self. intros rw _. rewrite existsb_exists. split; intros (x & Hx & H); exists x.
  - rewrite andb_true_iff, Nat.eqb_eq, sat_any_iff in H by auto. tauto.
  - rewrite andb_true_iff, Nat.eqb_eq, sat_any_iff by auto. tauto.
Qed.

(** *** C03 *)
Lemma filter_label fr rw : distinct_labels fr -> In rw (frows fr) ->
  filter (fun r => Nat.eqb (rlab r) (rlab rw)) (frows fr) = [rw].
Proof.
  unfold distinct_labels. generalize (frows fr). intros l. induction l as [|a l IH]; cbn; intros D H; [contradiction|].
  inversion D; subst. destruct H as [->|H].
  - rewrite Nat.eqb_refl. f_equal. apply filter_none. intros x Hx. apply Nat.eqb_neq. intros E. apply H2.
    rewrite <- E. apply in_map; auto.
  - destruct (Nat.eqb_spec (rlab a) (rlab rw)) as [E|E]; auto. exfalso. apply H2. rewrite E. apply in_map; auto.
Qed.
Lemma reasons_single rs fr rw : all_present fr rs = true ->
  reasons_for rs (with_rows fr [rw]) = Ok (filter (fun r => conds_sat (fcols fr) (conds r) rw) rs).
Proof.
  induction rs as [|r rs IH]; cbn; auto. rewrite andb_true_iff. intros [H1 H2].
  unfold rule_num_covered. rewrite rule_covers_eq.
  change (conds_present (with_rows fr [rw]) (conds r)) with (conds_present fr (conds r)). rewrite H1. cbn.
  rewrite IH by auto. cbn. destruct (conds_sat (fcols fr) (conds r) rw); auto.
Qed.
Lemma mapM_combine_map {A B C} (g : A -> B) (l1 : list A) (h : A -> nat) (f : nat * B -> res C) (k : A -> C) :
  (forall a, In a l1 -> f (h a, g a) = Ok (k a)) -> mapM f (combine (map h l1) (map g l1)) = Ok (map k l1).
Proof. induction l1 as [|a l IH]; cbn; intros H; auto. rewrite H by auto; cbn. rewrite IH; auto. Qed.

Lemma predict_reasons_eq rs fr : distinct_labels fr -> all_present fr rs = true ->
  rs_predict_reasons rs fr =
    Ok (map (sat_any (fcols fr) rs) (frows fr),
        map (fun rw => filter (fun r => conds_sat (fcols fr) (conds r) rw) rs) (frows fr)).
Proof.
  intros L P. unfold rs_predict_reasons. rewrite rs_predict_distinct, P, orb_true_r by auto. cbn [bind].
  unfold labels. rewrite (mapM_combine_map _ _ _ _ (fun rw => filter (fun r => conds_sat (fcols fr) (conds r) rw) rs)); auto.
  intros rw Hrw. rewrite filter_label by auto. rewrite reasons_single by auto.
  destruct (sat_any (fcols fr) rs rw) eqn:E; auto. f_equal. symmetry. apply filter_none. intros r Hr.
  destruct (conds_sat (fcols fr) (conds r) rw) eqn:F; auto. exfalso.
  assert (sat_any (fcols fr) rs rw = true); [|congruence]. apply existsb_exists; eauto.
Qed.
Lemma reasons_exact rs fr :
  good_frame fr -> distinct_labels fr -> features_present fr rs ->
  exists preds reasons, rs_predict_reasons rs fr = Ok (preds, reasons) /\
    rs_predict rs fr = Ok preds /\
    Forall2 (fun rw rr => picks (sat_rule (fcols fr) rw) rs rr) (frows fr) reasons /\
    Forall2 (fun p rr => p = false <-> rr = []) preds reasons.
Proof.
  intros [W D] L P. assert (P' := P). apply all_present_iff in P'.
  rewrite predict_reasons_eq by auto. rewrite rs_predict_distinct, P', orb_true_r by auto.
  eexists _, _; split; [reflexivity|]. split; auto. split.
  - apply Forall2_map_self. intros rw _. apply picks_filter. intros r _. apply conds_sat_iff; auto.
  - induction (frows fr) as [|rw l IH]; cbn; constructor; auto. unfold sat_any.
    clear. induction rs as [|r rs IH]; cbn; [tauto|]. destruct (conds_sat (fcols fr) (conds r) rw); cbn; auto. split; congruence.
Qed.

(** *** C04 *)
Lemma rule_covers_exact r fr : good_frame fr -> features_present fr [r] ->
  exists fr', rule_covers r fr = Ok fr' /\ fcols fr' = fcols fr /\ picks (fun rw => sat_rule (fcols fr) rw r) (frows fr) (frows fr').
Proof.
  intros [W D] P. rewrite rule_covers_eq. erewrite present_conds; eauto; [|cbn; auto].
  eexists; split; eauto. split; auto. cbn. apply picks_filter. intros; apply conds_sat_iff; auto.
Qed.
Lemma conds_present_incl fr cs cs' : incl cs cs' -> conds_present fr cs' = true -> conds_present fr cs = true.
Proof. unfold conds_present. rewrite !forallb_forall. auto. Qed.
Lemma conds_sat_incl cols cs cs' rw : incl cs cs' -> conds_sat cols cs' rw = true -> conds_sat cols cs rw = true.
Proof. unfold conds_sat. rewrite !forallb_forall. auto. Qed.
Lemma rule_covers_same_conds r r' fr : incl (conds r) (conds r') -> incl (conds r') (conds r) -> rule_covers r fr = rule_covers r' fr.
Proof.
  intros H H'. rewrite !rule_covers_eq.
  assert (conds_present fr (conds r) = conds_present fr (conds r')) as ->.
  { apply eq_true_iff_eq; split; apply conds_present_incl; auto. }
  destruct (conds_present fr (conds r')); auto. f_equal. f_equal. apply filter_ext. intros rw.
  apply eq_true_iff_eq; split; apply conds_sat_incl; auto.
Qed.
Lemma rule_covers_append r cs fr fr1 fr2 :
  rule_covers (Rule_ (conds r ++ cs)) fr = Ok fr2 -> rule_covers r fr = Ok fr1 -> sublist (frows fr2) (frows fr1).
Proof.
  rewrite !rule_covers_eq. cbn [conds Rule_]. destruct (conds_present fr (conds r ++ cs)); [|discriminate]. intros [= <-].
  destruct (conds_present fr (conds r)); [|discriminate]. intros [= <-]. unfold with_rows; cbn [frows].
  replace (filter (conds_sat (fcols fr) (conds r ++ cs)) (frows fr)) with
    (filter (conds_sat (fcols fr) cs) (filter (conds_sat (fcols fr) (conds r)) (frows fr))); [apply sublist_filter|].
  rewrite filter_filter. apply filter_ext. intros. unfold conds_sat. rewrite forallb_app; auto.
Qed.
Lemma rule_covers_twice r fr fr1 : rule_covers r fr = Ok fr1 -> rule_covers r fr1 = Ok fr1.
Proof.
  rewrite !rule_covers_eq. destruct (conds_present fr (conds r)) eqn:E; [|discriminate]. intros [= <-].
  change (conds_present (with_rows fr _) (conds r)) with (conds_present fr (conds r)). rewrite E.
  unfold with_rows; cbn [fcols frows]. rewrite filter_filter. do 2 f_equal. apply filter_ext. intros; apply andb_diag.
Qed.

(** *** C05 *)
Lemma filter_label_count rows (p : row -> bool) rw : NoDup (map rlab rows) -> In rw rows ->
  count_occ Nat.eq_dec (map rlab (filter p rows)) (rlab rw) = if p rw then 1 else 0.
Proof.
  intros D H. assert (D' := NoDup_map_filter rlab p rows D). destruct (p rw) eqn:E.
  - apply NoDup_count_occ'; auto. apply in_map. apply filter_In; auto.
  - apply count_occ_not_In. intros Hin. apply in_map_iff in Hin. destruct Hin as (x & Ex & Hx). apply filter_In in Hx. destruct Hx as [Hx1 Hx2].
    assert (x = rw) as -> by (apply (NoDup_map_inj rlab rows); auto). congruence.
Qed.
Lemma covers_multiplicity rs fr c rw k : good_frame fr -> distinct_labels fr -> rs_isuniversal rs = false ->
  rs_covers rs fr = Ok c -> In rw (frows fr) ->
  (exists rr, picks (sat_rule (fcols fr) rw) rs rr /\ length rr = k) ->
  count_occ Nat.eq_dec (labels (frows c)) (rlab rw) = k.
Proof.
  intros [W D] L U H Hrw (rr & Hp & <-). rewrite rs_covers_eq, U in H. cbn in H.
  destruct (all_present fr rs); [|discriminate]. injection H as <-. cbn. unfold covered_rows. rewrite U.
  rewrite (picks_unique _ _ _ _ Hp (picks_filter _ (fun r => conds_sat (fcols fr) (conds r) rw) rs
     (fun r _ => conds_sat_iff (fcols fr) (conds r) rw D))).
  clear Hp U. unfold labels. induction rs as [|r rs IH]; cbn; auto.
  rewrite map_app, count_occ_app, filter_label_count, IH by auto. destruct (conds_sat (fcols fr) (conds r) rw); auto.
Qed.
Lemma num_covered_sum rs fr : rs_isuniversal rs = false -> features_present fr rs ->
  exists ns, mapM (fun r => rule_num_covered r fr) rs = Ok ns /\ rs_num_covered rs fr = Ok (list_sum ns).
Proof.
  intros U P. apply all_present_iff in P. unfold rs_num_covered. rewrite rs_covers_eq, U, P. cbn. unfold covered_rows. rewrite U.
  exists (map (fun r => length (filter (conds_sat (fcols fr) (conds r)) (frows fr))) rs). split.
  - apply mapM_total. intros r Hr. unfold rule_num_covered. rewrite rule_covers_eq.
    unfold all_present in P. rewrite forallb_forall in P. rewrite P; auto.
  - f_equal. clear. induction rs; cbn; auto. rewrite app_length. f_equal; auto.
Qed.
(** number of rows satisfying some rule, and the number when rules are disjoint *)
Lemma num_covered_disjoint rs fr n covered : good_frame fr -> distinct_labels fr -> features_present fr rs ->
  (forall rw rr, In rw (frows fr) -> picks (sat_rule (fcols fr) rw) rs rr -> length rr <= 1) ->
  rs_num_covered rs fr = Ok n -> picks (fun rw => sat_ruleset (fcols fr) rw rs) (frows fr) covered -> n = length covered.
Proof.
  intros [W D] L P Hd Hn Hp.
  rewrite (picks_unique _ _ _ _ Hp (picks_filter _ (sat_any (fcols fr) rs) _ (fun rw _ => sat_any_iff (fcols fr) rs rw D))).
  clear Hp. unfold rs_num_covered in Hn. rewrite rs_covers_eq in Hn. apply all_present_iff in P. rewrite P, orb_true_r in Hn.
  cbn in Hn. injection Hn as <-. unfold covered_rows. destruct (rs_isuniversal rs) eqn:U.
  { rewrite filter_all; auto. intros; apply universal_sat_any; auto. }
  assert (Hd' : forall rw, In rw (frows fr) -> length (filter (fun r => conds_sat (fcols fr) (conds r) rw) rs) <= 1).
  { intros rw Hrw. apply (Hd rw); auto. apply picks_filter. intros r _; apply conds_sat_iff; auto. }
  clear Hd L P U W. induction rs as [|r rs IH]; cbn.
  { rewrite filter_none; auto. }
  rewrite app_length, IH.
  - clear IH. induction (frows fr) as [|rw l IH]; cbn [filter length Nat.add]; auto.
    assert (H := Hd' rw (or_introl eq_refl)). assert (IH' := IH (fun x Hx => Hd' x (or_intror Hx))). clear IH.
    cbn [filter] in H.
    change (sat_any (fcols fr) (r :: rs) rw) with (conds_sat (fcols fr) (conds r) rw || sat_any (fcols fr) rs rw).
    destruct (conds_sat (fcols fr) (conds r) rw) eqn:E; cbn [orb length] in *;
      [|destruct (sat_any (fcols fr) rs rw); cbn [length] in *; unfold sat_any in *; cbn [existsb] in *; lia].
    assert (sat_any (fcols fr) rs rw = false) as ->; [|cbn [length]; unfold sat_any in *; cbn [existsb] in *; lia].
    unfold sat_any. apply not_true_iff_false. rewrite existsb_exists. intros (x & Hx & Ex).
    assert (In x (filter (fun r => conds_sat (fcols fr) (conds r) rw) rs)) as Hin by (apply filter_In; auto).
    destruct (filter _ rs); [contradiction|cbn in H; lia].
  - intros rw Hrw. specialize (Hd' rw Hrw). cbn in Hd'. destruct (conds_sat (fcols fr) (conds r) rw); cbn in *; lia.
Qed.
Lemma num_covered_ge rs fr n covered : good_frame fr -> features_present fr rs ->
  rs_num_covered rs fr = Ok n -> picks (fun rw => sat_ruleset (fcols fr) rw rs) (frows fr) covered -> length covered <= n.
Proof.
  intros [W D] P Hn Hp.
  rewrite (picks_unique _ _ _ _ Hp (picks_filter _ (sat_any (fcols fr) rs) _ (fun rw _ => sat_any_iff (fcols fr) rs rw D))).
  clear Hp. unfold rs_num_covered in Hn. rewrite rs_covers_eq in Hn. apply all_present_iff in P. rewrite P, orb_true_r in Hn.
  cbn in Hn. injection Hn as <-. unfold covered_rows. destruct (rs_isuniversal rs); [apply filter_length_le|].
  clear P W. induction rs as [|r rs IH]; cbn.
  { rewrite filter_none; auto. }
  rewrite app_length. transitivity (length (filter (conds_sat (fcols fr) (conds r)) (frows fr)) + length (filter (sat_any (fcols fr) rs) (frows fr))); [|lia].
  clear. induction (frows fr) as [|rw l IH]; cbn [filter length Nat.add]; auto.
  change (sat_any (fcols fr) (r :: rs) rw) with (conds_sat (fcols fr) (conds r) rw || sat_any (fcols fr) rs rw).
  destruct (conds_sat (fcols fr) (conds r) rw), (sat_any (fcols fr) rs rw); cbn [orb length] in *; unfold sat_any in *; cbn [existsb] in *; lia.
Qed.

(** *** C06 *)
Lemma predict_missing rs fr : ~ features_present fr rs ->
  rs_predict rs fr = Err KeyError \/
  ((exists r, In r rs /\ conds r = []) /\ rs_predict rs fr = Ok (map (fun _ => true) (frows fr))).
Proof.
  intros P. rewrite <- all_present_iff in P. destruct (rs_isuniversal rs) eqn:U.
  - right. apply universal_iff in U. split; auto. destruct U as (r & Hr & E). eapply predict_empty_rule; eauto.
  - left. rewrite rs_predict_eq, U. destruct (all_present fr rs); auto. congruence.
Qed.
Lemma predict_ok_present rs fr preds : rs_predict rs fr = Ok preds -> (forall r, In r rs -> conds r <> []) -> features_present fr rs.
Proof.
  intros H Hne. rewrite rs_predict_eq in H. assert (rs_isuniversal rs = false) as U.
  { apply not_true_iff_false. rewrite universal_iff. intros (r & Hr & E). eapply Hne; eauto. }
  rewrite U in H. cbn in H. destruct (all_present fr rs) eqn:E; [apply all_present_iff; auto|discriminate].
Qed.
Lemma reasons_missing rs fr : ~ features_present fr rs -> frows fr <> [] -> rs_predict_reasons rs fr = Err KeyError.
Proof.
  intros P Hne. unfold rs_predict_reasons. destruct (predict_missing rs fr P) as [H|[_ H]]; rewrite H; cbn; auto.
  destruct (frows fr) as [|rw rows] eqn:E; [congruence|]. cbn.
  destruct (not_present_conds fr rs P) as (r0 & Hr0 & Hf0).
  assert (G : forall example, fcols example = fcols fr -> reasons_for rs example = Err KeyError).
  { intros ex Ec. clear H P. revert Hr0. induction rs as [|x l IH]; cbn; [contradiction|].
    intros Hin. unfold rule_num_covered. rewrite rule_covers_eq.
    assert (conds_present ex (conds x) = conds_present fr (conds x)) as -> by (unfold conds_present, has_col; rewrite Ec; auto).
    destruct (conds_present fr (conds x)) eqn:F; cbn; auto.
    destruct Hin as [->|Hin]; [congruence|]. rewrite IH; auto. }
  rewrite G; auto.
Qed.

(** *** C07 *)
Lemma conds_sat_agree rs r cols cols' rw rw' : distinct_cols cols -> distinct_cols cols' -> agree_on rs cols cols' rw rw' -> In r rs ->
  conds_sat cols (conds r) rw = conds_sat cols' (conds r) rw'.
Proof.
  intros D D' [_ A] Hr. apply eq_true_iff_eq. rewrite !conds_sat_iff by auto. unfold sat_conds, sat_cond.
  split; intros H c Hc; destruct (H c Hc) as (w & Hw & E); exists w; split; auto; apply (A (cfeat c) w); auto; exists r, c; auto.
Qed.
Lemma existsb_Forall2 {A B} (R : A -> B -> Prop) (f : A -> bool) (g : B -> bool) l l' :
  Forall2 R l l' -> (forall a b, R a b -> f a = g b) -> existsb f l = existsb g l'.
Proof. intros F H; induction F; cbn; auto. erewrite H by eauto. rewrite IHF; auto. Qed.
Lemma existsb_ext_in {A} (f g : A -> bool) l : (forall a, In a l -> f a = g a) -> existsb f l = existsb g l.
Proof. induction l as [|a l IH]; cbn; intros H; auto. rewrite H, IH; auto. Qed.
Lemma sat_any_agree rs cols cols' rw rw' : distinct_cols cols -> distinct_cols cols' -> agree_on rs cols cols' rw rw' ->
  sat_any cols rs rw = sat_any cols' rs rw'.
Proof. intros D D' A. unfold sat_any. apply existsb_ext_in. intros r Hr. apply conds_sat_agree with rs; auto. Qed.
Lemma present_agree fr fr' rs : (forall f, mentions rs f -> (column_present fr f <-> column_present fr' f)) ->
  forall r, In r rs -> conds_present fr (conds r) = conds_present fr' (conds r).
Proof.
  intros H r Hr. unfold conds_present. apply eq_true_iff_eq. rewrite !forallb_forall.
  split; intros G c Hc; apply has_col_iff; apply H; try (exists r, c; auto); apply has_col_iff; auto.
Qed.
Lemma forallb_ext_in {A} (f g : A -> bool) l : (forall a, In a l -> f a = g a) -> forallb f l = forallb g l.
Proof. induction l as [|a l IH]; cbn; intros H; auto. rewrite H, IH; auto. Qed.
Lemma predict_ignores_other_columns rs fr fr' :
  distinct_cols (fcols fr) -> distinct_cols (fcols fr') ->
  (forall f, mentions rs f -> (column_present fr f <-> column_present fr' f)) ->
  Forall2 (agree_on rs (fcols fr) (fcols fr')) (frows fr) (frows fr') ->
  rs_predict rs fr = rs_predict rs fr' /\ rs_predict_reasons rs fr = rs_predict_reasons rs fr'.
Proof.
  intros D D' P F.
  assert (Hp := present_agree _ _ _ P).
  assert (E : rs_predict rs fr = rs_predict rs fr').
  { rewrite !rs_predict_eq.
    assert (all_present fr rs = all_present fr' rs) as -> by (apply forallb_ext_in; auto).
    destruct (_ || _); auto. f_equal.
    cut (Forall2 eq (map (fun rw => existsb (fun rw' => Nat.eqb (rlab rw') (rlab rw) && sat_any (fcols fr) rs rw') (frows fr)) (frows fr))
      (map (fun rw => existsb (fun rw' => Nat.eqb (rlab rw') (rlab rw) && sat_any (fcols fr') rs rw') (frows fr')) (frows fr'))).
    { clear. intros H. induction H; f_equal; auto. }
    generalize F. generalize (frows fr) at 1 3 as l. generalize (frows fr') at 1 3 as l'. intros l' l F2.
    induction F2; cbn; constructor; auto. eapply existsb_Forall2; [apply F|].
    intros a b Hab. rewrite (sat_any_agree rs (fcols fr) (fcols fr') a b) by auto. destruct H as [-> _], Hab as [-> _]. auto. }
  split; auto. unfold rs_predict_reasons. rewrite E. destruct (rs_predict rs fr') as [preds|]; cbn; auto.
  assert (labels (frows fr) = labels (frows fr')) as EL.
  { clear -F. induction F as [|? ? ? ? [H _]]; cbn; f_equal; auto. }
  rewrite EL. f_equal. apply mapM_ext. intros [i p] _. destruct p; auto.
  assert (F2 : Forall2 (agree_on rs (fcols fr) (fcols fr')) (filter (fun r => Nat.eqb (rlab r) i) (frows fr))
                 (filter (fun r => Nat.eqb (rlab r) i) (frows fr'))).
  { clear -F. induction F; cbn; auto. assert (H' := H). destruct H' as [-> _]. destruct (_ =? _); auto. }
  assert (forall q, incl q rs -> reasons_for q (with_rows fr (filter (fun r => Nat.eqb (rlab r) i) (frows fr)))
     = reasons_for q (with_rows fr' (filter (fun r => Nat.eqb (rlab r) i) (frows fr')))) as Hq; [|apply Hq; apply incl_refl].
  induction q as [|r q IH]; cbn; auto. intros Hincl. unfold rule_num_covered. rewrite !rule_covers_eq.
  assert (conds_present (with_rows fr (filter (fun r => Nat.eqb (rlab r) i) (frows fr))) (conds r) =
          conds_present (with_rows fr' (filter (fun r => Nat.eqb (rlab r) i) (frows fr'))) (conds r)) as ->.
  { apply (Hp r). apply Hincl; cbn; auto. }
  destruct (conds_present (with_rows fr' _) (conds r)); cbn; auto.
  rewrite IH by (intros x Hx; apply Hincl; cbn; auto).
  assert (length (filter (conds_sat (fcols fr) (conds r)) (filter (fun r => Nat.eqb (rlab r) i) (frows fr))) =
          length (filter (conds_sat (fcols fr') (conds r)) (filter (fun r => Nat.eqb (rlab r) i) (frows fr')))) as ->; auto.
  clear -F2 D D' Hincl. induction F2; cbn; auto.
  rewrite (conds_sat_agree rs r (fcols fr) (fcols fr') x y); auto; [|apply Hincl; cbn; auto].
  destruct (conds_sat _ _ _); cbn; auto.
Qed.

(** checkable sufficient conditions, for concrete data *)
From Verif Require Import Demo.
Lemma nth_error_combine_seq {A} (l : list A) i a k : nth_error l i = Some a -> In (k + i, a) (combine (seq k (length l)) l).
Proof.
  revert i k; induction l as [|x l IH]; intros [|i] k; cbn; intros H; try discriminate.
  - injection H as <-. rewrite Nat.add_0_r; auto.
  - right. replace (k + S i) with (S k + i) by lia. apply IH; auto.
Qed.
Lemma good_frameb_ok fr : good_frameb fr = true -> good_frame fr.
Proof.
  unfold good_frameb. rewrite andb_true_iff, !forallb_forall. intros [H1 H2]. split.
  - intros r Hr. apply Nat.eqb_eq. auto.
  - intros i j a b Ha Hb E. apply (nth_error_combine_seq _ _ _ 0) in Ha, Hb. cbn in Ha, Hb.
    assert (G := H2 ((i, a), (j, b)) (in_prod _ _ _ _ Ha Hb)). cbn in G. rewrite E in G. cbn in G.
    rewrite orb_false_r in G. apply Nat.eqb_eq; auto.
Qed.
Lemma demo_good : good_frame demo.
Proof. apply good_frameb_ok. vm_compute. reflexivity. Qed.
Lemma demo_labels : distinct_labels demo.
Proof. unfold distinct_labels. cbn. repeat constructor; cbn; intuition; discriminate. Qed.
Lemma demo_present : features_present demo demo_rules.
Proof. apply all_present_iff. vm_compute. reflexivity. Qed.
Lemma agree_cells rs cols cols' rw rw' : distinct_cols cols -> distinct_cols cols' -> rlab rw = rlab rw' ->
  (forall f, mentions rs f -> cell cols f rw = cell cols' f rw') -> agree_on rs cols cols' rw rw'.
Proof. intros D D' L H. split; auto. intros f w Hf. rewrite <- !cell_value_at by auto. rewrite H by auto. tauto. Qed.
