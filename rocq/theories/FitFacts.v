(** * FitFacts.v : discretising the training frame succeeds and keeps its shape (C25, C34) *)
From Verif Require Export PrepFacts.
Open Scope nat_scope.

Definition nbins_ok (nbins : option Z) : Prop := match nbins with None => True | Some n => (0 <= n)%Z end.

Lemma distinct_ordpairs cols : distinct_cols cols -> ForallOrdPairs (fun a b => py_eq a b = false) cols.
Proof.
  induction cols as [|c t IH]; intros D; constructor.
  - apply Forall_forall. intros x Hx. apply In_nth_error in Hx. destruct Hx as (j & Hj). apply Bool.not_true_iff_false. intros E.
    assert (0 = S j) by (eapply D; eauto; reflexivity). discriminate.
  - apply IH. intros i j a b Ha Hb E. assert (S i = S j) by (eapply D; eauto). lia.
Qed.
Lemma mapM_keys {A} (g : pyval -> res A) l bs : mapM (fun f => b <- g f ;; Ok (f, b)) l = Ok bs ->
  map fst bs = l /\ forall f b, In (f, b) bs -> In f l /\ g f = Ok b.
Proof.
  revert bs. induction l as [|f l IH]; cbn [mapM]; intros bs H; [injection H as <-; split; auto; intros f b []|].
  binv H. rename v into p, E into E1. binv H. rename v into ps, E into E2. injection H as <-. binv E1. rename v into b. injection E1 as <-.
  destruct (IH ps E2) as [I1 I2]. split; [cbn; congruence|]. intros f0 b0 [X|X]; [injection X as <- <-; split; auto; left; auto|].
  destruct (I2 _ _ X). split; auto. right; auto.
Qed.
Lemma ordpairs_keys {A} (bs : list (pyval * A)) : ForallOrdPairs (fun a b => py_eq a b = false) (map fst bs) -> distinct_keys bs.
Proof.
  unfold distinct_keys. induction bs as [|p t IH]; intros H; [constructor|]. cbn [map] in H. inversion H as [|? ? F O]; subst.
  constructor; auto. apply Forall_map_iff in F. exact F.
Qed.
Lemma mapM_total {A B} (g : A -> res B) l : (forall x, In x l -> exists y, g x = Ok y) -> exists ys, mapM g l = Ok ys.
Proof.
  induction l as [|x l IH]; intros H; [exists []; reflexivity|]. destruct (H x) as (y & E); [left; auto|].
  destruct IH as (ys & E2); [intros; apply H; right; auto|]. exists (y :: ys). cbn [mapM]. rewrite E, E2. reflexivity.
Qed.

Lemma uniq_nan_one vs n : (0 < n)%Z -> forallb (fun v => match v with PInt _ | PDec _ _ | PNaN => true | _ => false end) vs = true ->
  (n <? Z.of_nat (length (unique vs)))%Z = true -> exists v x, In v vs /\ num_of v = Some x.
Proof.
  intros P N H. destruct (existsb (fun v => match num_of v with Some _ => true | None => false end) vs) eqn:E.
  - apply existsb_exists in E. destruct E as (v & I & E). destruct (num_of v) eqn:En; [eauto|discriminate].
  - exfalso. assert (A : forall v, In v vs -> v = PNaN).
    { intros v I. rewrite forallb_forall in N. specialize (N v I). destruct v; try discriminate; auto; exfalso;
      (assert (X : existsb (fun v => match num_of v with Some _ => true | None => false end) vs = true) by (apply existsb_exists; eexists; split; [exact I|reflexivity])); congruence. }
    assert (U : forall v, In v (unique vs) -> v = PNaN) by (intros v I; apply A, unique_In; auto).
    assert (D : NoDup (unique vs)).
    { apply (dedup_by_NoDup uniq_eq uniq_eq_refl). }
    destruct (unique vs) as [|a [|b t]]; cbn in H; apply Z.ltb_lt in H; try lia.
    inversion D; subst. apply H2. left. rewrite (U a), (U b); auto; [right; left; auto|left; auto].
Qed.

Lemma fit_bins_ok cut nbins fr ignore : cuts_ok cut -> nbins_ok nbins -> distinct_cols (fcols fr) ->
  exists bins, fit_bins cut nbins fr ignore = Ok (mkbt (Some bins) []) /\ distinct_keys bins /\
    forall f b, In (f, b) bins -> In f (fcols fr) /\ is_numeric_col (column fr f) = true /\ existsb (fun g => py_eq g f) ignore = false /\
      exists ivs, b = map label ivs /\ in_order ivs.
Proof.
  intros C N D. unfold fit_bins.
  set (nb := match nbins with Some n => n | None => 0%Z end).
  assert (N0 : (nb <? -1)%Z = false /\ (nb <? 0)%Z = false) by (unfold nb; destruct nbins; cbn in N; split; apply Z.ltb_ge; lia).
  destruct N0 as [N1 N2].
  assert (F : forall f, In f (find_continuous_feats nbins fr ignore) -> In f (fcols fr) /\ is_numeric_col (column fr f) = true /\
    existsb (fun g => py_eq g f) ignore = false /\ (0 < nb)%Z /\ (nb < Z.of_nat (length (unique (column fr f))))%Z).
  { intros f I. unfold find_continuous_feats in I. unfold nb. destruct nbins as [nb'|]; [|contradiction]. cbn in N.
    destruct (Z.eqb_spec nb' 0) as [->|NZ]; [contradiction|]. apply filter_In in I. destruct I as [I P].
    apply andb_prop in P. destruct P as [P P3]. apply andb_prop in P. destruct P as [P1 P2]. apply Bool.negb_true_iff in P3. apply Z.ltb_lt in P2.
    split; auto. split; auto. split; auto. split; auto. lia. }
  assert (L : forall f, In f (find_continuous_feats nbins fr ignore) -> exists ivs,
     fit_labels (pandas_bins (cut nb (column fr f)) (column fr f)) = Ok (map label ivs) /\ in_order ivs).
  { intros f I. destruct (F f I) as (_ & F2 & _ & F4 & F5). destruct (C nb (column fr f) F4 F2 F5) as (C1 & C2 & C3).
    destruct (uniq_nan_one (column fr f) nb F4 F2) as (v & x & Hv & Hx); [apply Z.ltb_lt; auto|].
    destruct (fit_labels_exact (cut nb (column fr f)) (column fr f) C1) as [[E _]|(ivs & E & _ & O & _)]; [|eauto].
    exfalso. eapply training_kept; eauto. }
  destruct (mapM_total (fun f => _ <- (if (nb <? -1)%Z then Err ValueError else if (nb <? 0)%Z then Err IndexError else Ok tt) ;;
                                 b <- fit_labels (pandas_bins (cut nb (column fr f)) (column fr f)) ;; Ok (f, b)) (find_continuous_feats nbins fr ignore)) as (bs & E).
  { intros f I. destruct (L f I) as (ivs & -> & _). rewrite N1, N2. cbn [bind]. eauto. }
  rewrite E. cbn [bind]. rewrite N1, N2 in E. cbn [bind] in E.
  eexists. split; [reflexivity|]. destruct (mapM_keys _ _ _ E) as [K1 K2]. split.
  - unfold distinct_keys. apply ordpairs_filter. apply ordpairs_keys. rewrite K1. unfold find_continuous_feats. destruct nbins as [n|]; [|constructor].
    destruct (n =? 0)%Z; [constructor|]. apply ordpairs_filter, distinct_ordpairs; auto.
  - intros f b I. apply filter_In in I. destruct I as [I _]. destruct (K2 f b I) as [K3 K4]. destruct (F f K3) as (F1 & F2 & F3 & _).
    destruct (L f K3) as (ivs & E1 & O). rewrite E1 in K4. injection K4 as <-. split; [auto|]. split; [auto|]. split; [auto|]. exists ivs; auto.
Qed.

Lemma has_col_In fr f : In f (fcols fr) -> py_eq f f = true -> has_col fr f = true.
Proof. intros I E. apply existsb_exists. eauto. Qed.

Lemma numeric_not_text vs : is_numeric_col vs = true -> is_text_col vs = false.
Proof.
  intros H. unfold is_numeric_col in H. rewrite forallb_forall in H. unfold is_text_col. apply Bool.orb_false_iff. split.
  - apply Bool.not_true_iff_false. rewrite existsb_exists. intros (v & I & E). specialize (H v I). destruct v; discriminate.
  - apply Bool.andb_false_iff. left. apply Bool.not_true_iff_false. rewrite existsb_exists. intros (v & I & E). specialize (H v I). destruct v; discriminate.
Qed.
Lemma transform_cols_total bt bins : bt_thresholds bt = [] -> (forall f b, In (f, b) bins -> exists ivs, b = map label ivs /\ in_order ivs) ->
  forall fr, exists fr', transform_cols bt [] bins fr = Ok fr'.
Proof.
  intros T. induction bins as [|[f b] t IH]; intros H fr; cbn [transform_cols]; [eauto|].
  assert (IH' : forall fr, exists fr', transform_cols bt [] t fr = Ok fr') by (apply IH; intros; apply (H f0); right; auto).
  destruct (_ && _); [|auto]. unfold transform_feat. rewrite T. cbn [assoc find option_map]. destruct (H f b) as (ivs & -> & O); [left; auto|].
  destruct (transform_exact ivs (column fr f) O) as (out & -> & _). cbn [bind]. auto.
Qed.

(** discretising a training frame: succeeds, same columns, same index, well formed; the class column is untouched *)
Lemma fit_transform_ok cut nbins fr f : cuts_ok cut -> nbins_ok nbins -> good_frame fr -> has_col fr f = true ->
  exists bt df', fit_transform cut nbins fr [f] = Ok (bt, df') /\ good_frame df' /\ fcols df' = fcols fr /\
    labels (frows df') = labels (frows fr) /\ column df' f = column fr f /\
    (exists bins, bt = mkbt (Some bins) [] /\ distinct_keys bins).
Proof.
  intros C N [W D] HC. destruct (fit_bins_ok cut nbins fr [f] C N D) as (bins & E & DK & B). unfold fit_transform. rewrite E. cbn [bind].
  assert (FT : find_transformed bins fr = Ok []).
  { unfold find_transformed. rewrite filter_none; [reflexivity|]. intros [g b] I. cbn [fst]. destruct (B g b I) as (_ & NC & _).
    rewrite (numeric_not_text _ NC), Bool.andb_false_r. reflexivity. }
  destruct (transform_cols_total (mkbt (Some bins) []) bins eq_refl) with (fr := fr) as (df' & E2).
  { intros g b I. destruct (B g b I) as (_ & _ & _ & X). exact X. }
  assert (ET : transform (mkbt (Some bins) []) fr = Ok df') by (unfold transform; cbn [bt_bins]; rewrite FT; exact E2).
  rewrite ET. cbn [bind]. exists (mkbt (Some bins) []), df'. split; auto.
  destruct (transform_spec (mkbt (Some bins) []) bins fr df' eq_refl DK W ET) as (T1 & T2 & T3 & _ & _ & T6).
  split; [split; [auto|rewrite T1; auto]|]. split; auto. split; auto. split; [|eauto].
  apply T6. intros g b I. destruct (B g b I) as (_ & _ & X & _). cbn in X. rewrite Bool.orb_false_r in X. rewrite py_eq_sym. exact X.
Qed.

(** preprocessing for fit, as a whole *)
Lemma get_pos_unique vs vs' pc : vs = vs' -> get_pos_class vs pc = get_pos_class vs' pc. Proof. intros ->; auto. Qed.
Lemma preprocess_labelled cut nbins X y cf pc names fr f p df0 :
  cuts_ok cut -> nbins_ok nbins -> table_of X names fr -> frows fr <> [] -> check_input X (Some y) cf names true = Ok tt ->
  class_feat_name cf (Some y) = Some f -> training_df X (Some y) f names = Ok df0 -> good_frame df0 -> has_col df0 f = true ->
  get_pos_class (column df0 f) pc = Ok p ->
  exists df bt, preprocess_training cut nbins X (Some y) cf pc names = Ok (df, f, p, bt) /\ good_frame df /\ fcols df = fcols df0 /\
    labels (frows df) = labels (frows df0) /\ column df f = column df0 f.
Proof.
  intros C N T NE CI CN TD G HC GP. unfold preprocess_training. rewrite CI. cbn [bind]. rewrite CN, TD. cbn [bind]. rewrite GP. cbn [bind].
  destruct (fit_transform_ok cut nbins df0 f C N G HC) as (bt & df & -> & G' & F & L & CL & _). cbn [bind]. exists df, bt. auto.
Qed.
