(** * Prop_Extra.v : C99 -- a column that says nothing new changes nothing (IREP) *)
From Verif Require Import ExtraSpec BaseFacts CoverFacts CallForm FitRun FitFacts MetricsFacts TransFacts ClfFacts ClassFacts TrainView Hom IrepTrain RenSim RenTrain RenFit Extra Prop_Bins Prop_Fit Prop_FitModel Prop_Train Prop_Call Prop_Model Prop_Rename Prop_Cutoff ClfSpec Demo.
Open Scope nat_scope.

(** the raw training frame, column by column *)
Section RAW.
Variables (X : data) (y : option ydata) (cf : option pyval) (names : option (list pyval)) (f : pyval) (vs : list pyval) (ix : list nat) (fr df0 : frame).
Hypotheses (T : training_input X y cf names f vs ix) (TB : table_of X names fr) (TD : training_df X y f names = Ok df0) (G : good_frame df0).
Lemma raw_has h : py_eq f h = false -> has_col df0 h = existsb (fun c => py_eq c h) (feature_columns f fr).
Proof.
  intros H. destruct (raw_view _ _ _ _ _ _ _ _ _ T TB TD) as (_ & _ & _ & _ & _ & CP & _). apply Bool.eq_true_iff_eq. rewrite has_col_iff, (CP h H), existsb_exists. unfold column_present, feature_columns. split; intros (c & I & Q); exists c.
  - split; [|auto]. apply filter_In. split; [auto|]. apply Bool.negb_true_iff, Bool.not_true_iff_false. intros K. assert (py_eq f h = true); [|congruence]. apply (py_eq_trans f c h); [rewrite py_eq_sym; exact K|exact Q].
  - apply filter_In in I. tauto.
Qed.
Lemma raw_len : length (frows df0) = length (frows fr).
Proof. apply (raw_view _ _ _ _ _ _ _ _ _ T TB TD). Qed.
Lemma raw_nth h i v : py_eq f h = false -> has_col df0 h = true -> (nth_error (column df0 h) i = Some v <-> exists r, nth_error (frows fr) i = Some r /\ value_at (fcols fr) r h v).
Proof.
  intros H HC. destruct (raw_view _ _ _ _ _ _ _ _ _ T TB TD) as (_ & _ & _ & _ & LD & _ & _ & CELL). split.
  - intros N. assert (exists rd, nth_error (frows df0) i = Some rd) as (rd & Rd) by (destruct (nth_error (frows df0) i) eqn:E; eauto; rewrite column_nth, E in N by auto; discriminate).
    destruct (nth_same_len (frows fr) (frows df0) i rd (eq_sym LD) Rd) as (r & R). exists r. split; [auto|]. apply (CELL i r rd R Rd h v H). apply (value_column df0 h i rd v G HC Rd). exact N.
  - intros (r & R & V). destruct (nth_same_len (frows df0) (frows fr) i r LD R) as (rd & Rd). apply (value_column df0 h i rd v G HC Rd). apply (CELL i r rd R Rd h v H). exact V.
Qed.
Lemma raw_values h : py_eq f h = false -> has_col df0 h = true -> column_values fr h (column df0 h).
Proof.
  intros H HC. split; [rewrite column_length by (auto; apply G); apply raw_len|]. intros i r v R N. apply raw_nth in N; auto. destruct N as (r' & R' & V). congruence.
Qed.
Lemma raw_some h i r : py_eq f h = false -> has_col df0 h = true -> nth_error (frows fr) i = Some r -> exists v, nth_error (column df0 h) i = Some v /\ value_at (fcols fr) r h v.
Proof.
  intros H HC R. assert (L : i < length (column df0 h)) by (rewrite column_length, raw_len by (auto; apply G); apply nth_error_Some; congruence).
  destruct (nth_error (column df0 h) i) as [v|] eqn:N; [|apply nth_error_None in N; lia]. exists v. split; [auto|]. apply raw_nth in N; auto. destruct N as (r' & R' & V). congruence.
Qed.
End RAW.
Lemma as_is cut nb fr h cs : kept_as_is nb fr h -> nbins_ok nb -> column_values fr h cs -> binned_col cut nb cs = cs.
Proof.
  intros K N C. unfold binned_col, bins_of. destruct nb as [n|]; [|reflexivity]. cbn in N. destruct (Z.eqb_spec n 0) as [|NZ]; [reflexivity|].
  destruct (is_numeric_col cs) eqn:NU; [|reflexivity]. destruct (Z.ltb_spec n (Z.of_nat (length (unique cs)))) as [L|L]; [|reflexivity]. exfalso. apply (K n cs eq_refl ltac:(lia) C). split; [apply numeric_iff; auto|apply more_than_unique; auto].
Qed.
Lemma xsat_at x c i r : good_frame x -> NoDup (labels (frows x)) -> nth_error (frows x) i = Some r ->
  xsat x c (rlab r) = match nth_error (column x (cfeat c)) i with Some w => py_eq w (cval c) | None => false end.
Proof.
  intros G N R. rewrite (xsat_cell x c i r) by auto. unfold cell_eq. rewrite (cell_nth x (cfeat c) i r G R). destruct (has_col x (cfeat c)) eqn:H; [reflexivity|]. rewrite column_none by auto. destruct i; reflexivity.
Qed.

(** C99. IREP (with cn_optimize, the default), trained on a table and on the same table with a column that says nothing new -- the same labels, index and settings:
    if the first call succeeds so does the second, and both models have the same rules, with the same class counts and probabilities; the same statistics of the
    uncovered examples; the same selected features, class and positive class; and the same bins for every other feature. *)
Theorem C99_idle_column : forall w cl X y cf names X' y' cf' names' f vs ix fr fr' g A B pc init kw c1,
  world_ok w -> c_alg cl = IREP_ ->
  training_input X y cf names f vs ix -> training_input X' y' cf' names' f vs ix -> NoDup ix ->
  table_of X names fr -> table_of X' names' fr' -> one_more f g A B fr fr' ->
  let h := hyper_of cl kw in
  adds_nothing (h_nbins h) fr' g A ->
  (0 <= h_prune h)%Q -> (h_prune h <= 1)%Q -> (h_nbins h = None \/ exists n, h_nbins h = Some n /\ (0 <= n)%Z) ->
  fit w cl X y cf pc names init true kw = (c1, Ok tt) ->
  exists c2 x1 x2 bt1 bt2, fit w cl X' y' cf' pc names' init true kw = (c2, Ok tt) /\
    c_rs c1 = Some x1 /\ c_rs c2 = Some x2 /\ rs_rules x1 = rs_rules x2 /\ rs_uncov x1 = rs_uncov x2 /\
    c_sel c1 = c_sel c2 /\ c_cf c1 = c_cf c2 /\ c_pc c1 = c_pc c2 /\
    c_bt c1 = Some bt1 /\ c_bt c2 = Some bt2 /\ forall k b, py_eq g k = false -> (bins_for bt1 k b <-> bins_for bt2 k b).
Proof.
  intros w cl X y cf names X' y' cf' names' f vs ix fr fr' g A B pc init kw c1 WO AL T T' ND TB TB' OM h AN P0 P1 NB H.
  assert (NO := nbins_fine_ok _ NB). assert (CO := proj2 WO).
  destruct (fit_fitted _ _ _ _ _ _ _ _ _ _ _ H) as (df & f1 & p & bt & xi & x1 & x2 & FT).
  assert (S0 : exists x0, irep_start init = Ok x0). { clear -H AL. unfold fit in H. rewrite AL in H. destruct (irep_start init) as [x0|]; [eauto|discriminate]. }
  destruct S0 as (x0 & S0).
  destruct FT as [FP FI FTR FF FR FC FPC FBT FS FAL FH FCl FFe].
  destruct (input_pre _ _ _ _ _ _ _ T) as (a & Ga & Ha & Ca & La & NEa & TDa & Pa). destruct (input_pre _ _ _ _ _ _ _ T') as (b & Gb & Hb & Cb & Lb & NEb & TDb & Pb).
  rewrite Pa in FP. binv FP. rename v into p0, E into GP. binv FP. destruct v as [bt0 df0]. injection FP as -> <- -> ->. rename E into EA. rewrite AL in FTR, FF. cbn [train] in FTR. fold h in FTR, FF.
  destruct (fit_transform_ok (w_cut w) (fit_nbins cl kw) b f CO NO Gb Hb) as (bt' & df' & EB & Gd' & F' & L' & CL' & _).
  destruct (binned_columns _ _ _ _ _ _ CO NO Ga EA) as (FA & LA & GA & KA & BA). destruct (binned_columns _ _ _ _ _ _ CO NO Gb EB) as (FB & LB & GB & KB & BB).
  change (fit_nbins cl kw) with (h_nbins h) in *.
  destruct (raw_view _ _ _ _ _ _ _ _ _ T' TB' TDb) as (Gf' & _).
  (* the added column differs from the others and from the class *)
  assert (GIN : In g (feature_columns f fr')) by (rewrite (om_cols' _ _ _ _ _ _ OM); apply in_elt).
  assert (GF : py_eq g f = false) by (unfold feature_columns in GIN; apply filter_In in GIN; apply Bool.negb_true_iff; tauto). assert (FG : py_eq f g = false) by (rewrite py_eq_sym; exact GF).
  assert (FNF : forall k, In k (A ++ B) -> py_eq f k = false).
  { intros k I. rewrite <- (om_cols _ _ _ _ _ _ OM) in I. unfold feature_columns in I. apply filter_In in I. rewrite py_eq_sym. apply Bool.negb_true_iff. tauto. }
  assert (AP : forall k, In k (A ++ B) -> py_eq g k = false).
  { assert (D : distinct_cols (A ++ g :: B)).
    { rewrite <- (om_cols' _ _ _ _ _ _ OM). destruct (drop_col_good _ _ _ Gb (raw_drop _ _ _ _ _ _ _ _ _ T' TB' TDb)) as ([_ D] & _). exact D. }
    intros k I. apply Bool.not_true_iff_false. intros Q. assert (NG : nth_error (A ++ g :: B) (length A) = Some g) by (rewrite nth_error_app2, Nat.sub_diag by lia; reflexivity).
    apply in_app_or in I. destruct I as [I|I]; destruct (In_nth_error _ _ I) as (i & N).
    - assert (LI : i < length A) by (apply nth_error_Some; congruence). assert (NK : nth_error (A ++ g :: B) i = Some k) by (rewrite nth_error_app1; auto). specialize (D _ _ _ _ NG NK Q). lia.
    - assert (NK : nth_error (A ++ g :: B) (length A + S i) = Some k) by (rewrite nth_error_app2 by lia; replace (length A + S i - length A) with (S i) by lia; exact N). specialize (D _ _ _ _ NG NK Q). lia. }
  (* raw tables *)
  assert (SHR : shared g a b).
  { split; [congruence|]. intros k K. destruct (py_eq f k) eqn:FK.
    - rewrite <- (column_eq a k f FK), <- (column_eq b k f FK), Ca, Cb. split; [|auto].
      assert (HH : forall q, has_col q f = true -> has_col q k = true) by (intros q HQ; apply existsb_exists in HQ; destruct HQ as (c & I & Q); apply existsb_exists; exists c; split; [auto|]; eapply py_eq_trans; eauto). rewrite !HH by auto. reflexivity.
    - assert (HE : has_col a k = has_col b k).
      { rewrite (raw_has _ _ _ _ _ _ _ _ _ T TB TDa k FK), (raw_has _ _ _ _ _ _ _ _ _ T' TB' TDb k FK), (om_cols _ _ _ _ _ _ OM), (om_cols' _ _ _ _ _ _ OM), !existsb_app. cbn [existsb]. rewrite K. reflexivity. }
      split; [exact HE|]. destruct (has_col a k) eqn:HA; [|rewrite !column_none by auto; reflexivity].
      rewrite (raw_has _ _ _ _ _ _ _ _ _ T TB TDa k FK), (om_cols _ _ _ _ _ _ OM) in HA. apply existsb_exists in HA. destruct HA as (c & I & Q). rewrite <- (column_eq a k c Q), <- (column_eq b k c Q).
      assert (Fc := FNF c I). assert (RF : py_eq c c = true) by (eapply py_eq_refl_l; eauto).
      assert (Hac : has_col a c = true) by (rewrite (raw_has _ _ _ _ _ _ _ _ _ T TB TDa c Fc), (om_cols _ _ _ _ _ _ OM); apply existsb_exists; eauto).
      assert (Hbc : has_col b c = true) by (rewrite (raw_has _ _ _ _ _ _ _ _ _ T' TB' TDb c Fc), (om_cols' _ _ _ _ _ _ OM); apply existsb_exists; exists c; split; [apply in_app_or in I; apply in_or_app; destruct I; [left|right; right]; auto|auto]).
      apply nth_error_ext. intros i. destruct (nth_error (frows fr) i) as [r|] eqn:R.
      + destruct (nth_same_len (frows fr') (frows fr) i r (eq_sym (om_rows _ _ _ _ _ _ OM)) R) as (r' & R'). destruct (raw_some _ _ _ _ _ _ _ _ _ T TB TDa Ga c i r Fc Hac R) as (v & N & V).
        rewrite N. symmetry. apply (raw_nth _ _ _ _ _ _ _ _ _ T' TB' TDb Gb c i v Fc Hbc). exists r'. split; [auto|]. apply (om_cells _ _ _ _ _ _ OM i r r' c v); auto.
      + assert (LI : length (frows fr) <= i) by (apply nth_error_None; auto). assert (L1 := raw_len _ _ _ _ _ _ _ _ _ T TB TDa). assert (L2 := raw_len _ _ _ _ _ _ _ _ _ T' TB' TDb). assert (L3 := om_rows _ _ _ _ _ _ OM).
        rewrite (proj2 (nth_error_None (column a c) i)), (proj2 (nth_error_None (column b c) i)); [reflexivity| |]; rewrite column_length by (auto; apply Ga || apply Gb); lia. }
  (* binned tables *)
  assert (SHD : shared g df df').
  { split; [rewrite LA, LB; apply SHR|]. intros k K. destruct (proj2 SHR k K) as [S1 S2]. split; [unfold has_col in *; rewrite FA, FB; exact S1|].
    destruct (py_eq f k) eqn:FK; [rewrite KA, KB by auto; exact S2|rewrite BA, BB by auto; congruence]. }
  assert (CPF : column_present df f /\ column_present df' f) by (split; apply has_col_iff; unfold has_col in *; [rewrite FA|rewrite FB]; assumption).
  assert (LBL : distinct_labels df /\ distinct_labels df') by (unfold distinct_labels; rewrite LA, LB, La, Lb; auto).
  destruct (setting_exists (w_env w) h df f p (proj1 WO) P0 P1 GA (proj1 LBL) (proj1 CPF)) as (x & q1 & n1 & q1' & n1' & ST).
  destruct (setting_exists (w_env w) h df' f p (proj1 WO) P0 P1 GB (proj2 LBL) (proj2 CPF)) as (x' & q2 & n2 & q2' & n2' & ST').
  assert (DX : forall q d z z0, drop_col q f = Ok z0 -> drop_col d f = Ok z -> fcols d = fcols q -> fcols z = fcols z0).
  { intros q d z z0 D1 D2 Fc. unfold drop_col in D1, D2. rewrite Fc in D2. destruct (col_pos (fcols q) f); [|discriminate]. injection D1 as <-. injection D2 as <-. reflexivity. }
  assert (FX : fcols x = A ++ B). { rewrite (DX _ _ _ _ (raw_drop _ _ _ _ _ _ _ _ _ T TB TDa) (s_x _ _ _ _ _ _ _ _ _ _ ST) FA). apply (om_cols _ _ _ _ _ _ OM). }
  assert (FX' : fcols x' = A ++ g :: B). { rewrite (DX _ _ _ _ (raw_drop _ _ _ _ _ _ _ _ _ T' TB' TDb) (s_x _ _ _ _ _ _ _ _ _ _ ST') FB). apply (om_cols' _ _ _ _ _ _ OM). }
  destruct (st_xgood ST') as (GX' & LX' & NX' & _).
  assert (COL : forall k, py_eq f k = false -> column x' k = binned_col (w_cut w) (h_nbins h) (column b k)) by (intros k K; rewrite (column_drop df' f x' k GB (s_x _ _ _ _ _ _ _ _ _ _ ST') K); apply BB; exact K).
  assert (XL : forall i r, nth_error (frows x') i = Some r -> exists r', nth_error (frows fr') i = Some r').
  { intros i r R. apply (nth_same_len (frows fr') (frows x') i r); [|exact R]. rewrite (RenTrain.drop_len _ _ _ (s_x _ _ _ _ _ _ _ _ _ _ ST')). apply (f_equal (@length nat)) in LB. unfold labels in LB. rewrite !map_length in LB. rewrite LB. symmetry. apply (raw_len _ _ _ _ _ _ _ _ _ T' TB' TDb). }
  assert (POS : forall i, In i (labels (frows x')) -> exists j r, nth_error (frows x') j = Some r /\ rlab r = i) by (intros i I; apply in_map_iff in I; destruct I as (r & <- & I); destruct (In_nth_error _ _ I) as (j & J); eauto).
  assert (ID : forall v, In v (unique (column x' g)) -> (forall i, In i (labels (frows x')) -> xsat x' (mkcond g v) i = true) \/ (forall i, In i (labels (frows x')) -> xsat x' (mkcond g v) i = false) \/
     exists k u, In k A /\ In u (unique (column x' k)) /\ forall i, In i (labels (frows x')) -> xsat x' (mkcond k u) i = xsat x' (mkcond g v) i).
  { intros v IV. assert (IV' := unique_In _ _ IV). rewrite (COL g FG) in IV'.
    assert (HG : has_col b g = true).
    { destruct (has_col b g) eqn:HB; [reflexivity|]. exfalso. rewrite column_none in IV' by auto. unfold binned_col, bins_of in IV'. destruct (h_nbins h) as [n|]; [|exact IV']. cbn in NO. destruct (Z.eqb_spec n 0); [exact IV'|]. cbn [is_numeric_col forallb andb unique dedup_by length] in IV'. destruct (Z.ltb_spec n (Z.of_nat 0)); [lia|exact IV']. }
    destruct AN as [(k & Ik & CPY)|[KA0 VAL] ].
    - assert (Fk : py_eq f k = false) by (apply FNF, in_or_app; auto).
      assert (HK : has_col b k = true).
      { destruct (frows fr') as [|r rr] eqn:RR; [destruct (raw_view _ _ _ _ _ _ _ _ _ T' TB' TDb) as (_ & NE & _); congruence|]. destruct (raw_some _ _ _ _ _ _ _ _ _ T' TB' TDb Gb g 0 r FG HG) as (u & _ & U); [rewrite RR; reflexivity|].
        apply (CPY r u) in U; [|left; auto]. rewrite (raw_has _ _ _ _ _ _ _ _ _ T' TB' TDb k Fk). destruct U as (j & c & N1 & N2 & _). apply existsb_exists. exists c. split; [|auto]. unfold feature_columns. apply filter_In. split; [eapply nth_error_In; eauto|].
        apply Bool.negb_true_iff, Bool.not_true_iff_false. intros K. assert (py_eq f k = true); [|congruence]. apply (py_eq_trans f c k); [rewrite py_eq_sym; exact K|exact N2]. }
      assert (EC : column b g = column b k).
      { apply nth_error_ext. intros i. destruct (nth_error (frows fr') i) as [r|] eqn:R.
        - destruct (raw_some _ _ _ _ _ _ _ _ _ T' TB' TDb Gb g i r FG HG R) as (u & N & U). rewrite N. symmetry. apply (raw_nth _ _ _ _ _ _ _ _ _ T' TB' TDb Gb k i u Fk HK). exists r. split; [auto|]. apply CPY; auto. eapply nth_error_In; eauto.
        - apply nth_error_None in R. assert (L2 := raw_len _ _ _ _ _ _ _ _ _ T' TB' TDb). rewrite (proj2 (nth_error_None (column b g) i)), (proj2 (nth_error_None (column b k) i)); [reflexivity| |]; rewrite column_length by (auto; apply Gb); lia. }
      right. right. exists k, v. assert (EX : column x' k = column x' g) by (rewrite !COL by auto; congruence). split; [auto|]. split; [rewrite EX; auto|]. intros i I. destruct (POS i I) as (j & r & R & <-).
      rewrite !(xsat_at x' _ j r) by auto. cbn [cfeat cval]. rewrite EX. reflexivity.
    - rewrite (as_is _ _ _ _ _ KA0 NO (raw_values _ _ _ _ _ _ _ _ _ T' TB' TDb Gb g FG HG)) in IV'. assert (CG : column x' g = column b g) by (rewrite COL by auto; apply (as_is _ _ _ _ _ KA0 NO); eapply raw_values; eauto).
      destruct (In_nth_error _ _ IV') as (i0 & N0). apply (raw_nth _ _ _ _ _ _ _ _ _ T' TB' TDb Gb g i0 v FG HG) in N0. destruct N0 as (r0 & R0 & V0).
      destruct (is_nan v) eqn:NV.
      { right. left. intros i I. destruct (POS i I) as (j & r & R & <-). rewrite (xsat_at x' _ j r) by auto. cbn [cfeat cval]. destruct (nth_error (column x' g) j) as [u|]; [|reflexivity]. destruct v; try discriminate NV. rewrite py_eq_sym. destruct u; reflexivity. }
      assert (V1 : v <> PNaN) by (intros ->; discriminate NV). destruct (VAL r0 v (nth_error_In _ _ R0) V0 V1) as [ALL|(k & u & Ik & KK & IFF)].
      + left. intros i I. destruct (POS i I) as (j & r & R & <-). rewrite (xsat_at x' _ j r) by auto. cbn [cfeat cval]. rewrite CG. destruct (XL j r R) as (r' & R').
        destruct (raw_some _ _ _ _ _ _ _ _ _ T' TB' TDb Gb g j r' FG HG R') as (u & N & U). rewrite N. apply (ALL r' u); auto. eapply nth_error_In; eauto.
      + right. right. assert (Fk : py_eq f k = false) by (apply FNF, in_or_app; auto).
        assert (HK : forall s w, value_at (fcols fr') s k w -> has_col b k = true).
        { intros s u1 (j & c & N1 & N2 & _). rewrite (raw_has _ _ _ _ _ _ _ _ _ T' TB' TDb k Fk). apply existsb_exists. exists c. split; [|auto]. unfold feature_columns. apply filter_In. split; [eapply nth_error_In; eauto|].
          apply Bool.negb_true_iff, Bool.not_true_iff_false. intros K. assert (py_eq f k = true); [|congruence]. apply (py_eq_trans f c k); [rewrite py_eq_sym; exact K|exact N2]. }
        destruct (proj1 (IFF r0 v (nth_error_In _ _ R0) V0) (py_eq_refl v V1)) as (w0 & W0 & QW). specialize (HK r0 w0 W0).
        assert (CK : column x' k = column b k) by (rewrite COL by auto; apply (as_is _ _ _ _ _ KK NO); eapply raw_values; eauto).
        assert (N0 : nth_error (column b k) i0 = Some w0) by (apply (raw_nth _ _ _ _ _ _ _ _ _ T' TB' TDb Gb k i0 w0 Fk HK); eauto).
        destruct (unique_complete w0 (column x' k)) as (u' & IU & QU); [rewrite CK; eapply nth_error_In; eauto|].
        exists k, u'. split; [auto|]. split; [auto|]. intros i I. destruct (POS i I) as (j & r & R & <-). rewrite !(xsat_at x' _ j r) by auto. cbn [cfeat cval]. rewrite CG, CK. destruct (XL j r R) as (r' & R').
        destruct (raw_some _ _ _ _ _ _ _ _ _ T' TB' TDb Gb g j r' FG HG R') as (wg & Ng & Ug). destruct (raw_some _ _ _ _ _ _ _ _ _ T' TB' TDb Gb k j r' Fk HK R') as (wk & Nk & Uk). rewrite Ng, Nk.
        specialize (IFF r' wg (nth_error_In _ _ R') Ug). 
        assert (QU' : py_eq u' w0 = true). { destruct (is_nan w0) eqn:NW; [destruct w0; try discriminate NW; rewrite py_eq_sym in QW; destruct u; discriminate QW|]. unfold uniq_eq in QU. rewrite NW, Bool.andb_false_r, Bool.orb_false_r in QU. exact QU. }
        assert (QQ : py_eq u' u = true) by (apply (py_eq_trans u' w0 u); assumption).
        apply Bool.eq_true_iff_eq. rewrite IFF. split.
        * intros K. exists wk. split; [auto|]. apply (py_eq_trans wk u' u); assumption.
        * intros (w1 & W1 & K). assert (w1 = wk) as -> by (apply (value_at_cell (fcols fr') k r' w1 (proj2 Gf')) in W1; apply (value_at_cell (fcols fr') k r' wk (proj2 Gf')) in Uk; congruence).
          apply (py_eq_trans wk u u'); [assumption|rewrite py_eq_sym; assumption]. }
  (* training, recalibration, trimming *)
  pose proof (train_more (w_env w) h df df' f p xi g A B _ _ _ _ _ _ _ _ _ _ ST ST' SHD GF FX FX' AP ID) as TM. rewrite FTR in TM.
  destruct (irep_train (w_env w) h true df' f p xi) as [y1|] eqn:FTR'; cbn [rres] in TM; [|contradiction]. destruct TM as (E1 & E2 & E3).
  assert (APR : forall r, In r (rs_rules x1) -> apart g r).
  { intros r I c Ic. cbn [finish] in FF. unfold recalibrate in FF. unfold check_features in FF. destruct (forallb (has_col df) (selected_features (rs_rules x1))) eqn:CF; [|discriminate FF].
    rewrite forallb_forall in CF. apply Bool.not_true_iff_false. intros Q.
    assert (HC : has_col df (cfeat c) = true).
    { destruct (selected_In (rs_rules x1) (cfeat c)) as (u & Iu & Qu); [exists r, c; auto|]. specialize (CF u Iu). destruct Qu as [<-|Qu]; [exact CF|]. apply existsb_exists in CF. destruct CF as (d & Id & Qd). apply existsb_exists. exists d. split; [auto|]. eapply py_eq_trans; eauto. }
    assert (FK : py_eq f (cfeat c) = false). { apply Bool.not_true_iff_false. intros K. assert (py_eq f g = true); [|congruence]. apply (py_eq_trans f (cfeat c) g); [exact K|rewrite py_eq_sym; exact Q]. }
    unfold has_col in HC. rewrite FA in HC. fold (has_col a (cfeat c)) in HC. rewrite (raw_has _ _ _ _ _ _ _ _ _ T TB TDa _ FK), (om_cols _ _ _ _ _ _ OM) in HC. apply existsb_exists in HC. destruct HC as (d & Id & Qd).
    assert (py_eq g d = true); [|rewrite (AP d Id) in *; discriminate]. apply (py_eq_trans g (cfeat c) d); [exact Q|rewrite py_eq_sym; exact Qd]. }
  cbn [finish] in FF. binv FF. rename v into xr. injection FF as <-. pose proof (pr_recal g f p df df' GA GB SHD GF (h_alpha h) x1 y1 E1 APR) as RC. rewrite E in RC.
  destruct (recalibrate (h_alpha h) y1 df' f p) as [yr|] eqn:RY; cbn [rres] in RC; [|contradiction]. destruct RC as (RC1 & RC2 & _).
  assert (PB : fit_pre w cl X' y' cf' pc names' kw = Ok (df', f, p, bt')) by (rewrite Pb, GP; cbn [bind]; change (fit_nbins cl kw) with (h_nbins h); rewrite EB; reflexivity).
  destruct (cols_without_ok df' f) as (feats & CW); [apply has_col_iff; apply CPF|].
  assert (NE' : frows df' <> []). { intros Z. apply (f_equal (@length nat)) in LB. unfold labels in LB. rewrite !map_length, Z in LB. destruct (frows b); [congruence|discriminate]. }
  destruct (fit_run w cl X' y' cf' pc names' init true kw df' f p bt' x0 xi y1 (dedupe_trim (w_env w) h yr) feats S0 PB FI) as (c2 & H2 & R1 & R2 & R3 & R4 & R5 & _); auto.
  { rewrite AL. exact FTR'. } { rewrite AL. cbn [finish]. fold h. rewrite RY. reflexivity. } { apply has_col_iff, CPF. }
  exists c2, (dedupe_trim (w_env w) h xr), (dedupe_trim (w_env w) h yr), bt, bt'. do 3 (split; [assumption|]). split; [unfold dedupe_trim, set_rules; cbn [rs_rules]; rewrite RC1; reflexivity|]. split; [unfold dedupe_trim, set_rules; cbn [rs_uncov]; exact RC2|].
  split; [rewrite FS, R5, E1; reflexivity|]. split; [congruence|]. split; [congruence|]. split; [assumption|]. split; [assumption|].
  unfold fit_transform in EA, EB. binv EA. rename v into t1. binv EA. injection EA as -> _. binv EB. rename v into t2. binv EB. injection EB as -> _.
  destruct (bins_In _ _ _ _ _ NO E0) as (l1 & -> & B1). destruct (bins_In _ _ _ _ _ NO E5) as (l2 & -> & B2).
  assert (BF : forall q l k b, (forall h0 b0, In (h0, b0) l <-> In h0 (fcols q) /\ existsb (fun g0 => py_eq g0 h0) [f] = false /\ bins_of (w_cut w) (h_nbins h) (column q h0) = Some b0) ->
     (bins_for (mkbt (Some l) []) k b <-> has_col q k = true /\ py_eq f k = false /\ bins_of (w_cut w) (h_nbins h) (column q k) = Some b)).
  { intros q l k b0 BI. unfold bins_for. cbn [bt_bins]. split.
    - intros (bs & k' & EE & I & Q). injection EE as <-. apply BI in I. destruct I as (I1 & I2 & I3). rewrite ignored_one in I2. split; [apply existsb_exists; eauto|]. rewrite (column_eq q k k' Q) in I3. split; [|auto].
      apply Bool.not_true_iff_false. intros K. assert (py_eq f k' = true); [|congruence]. apply (py_eq_trans f k k'); [exact K|rewrite py_eq_sym; exact Q].
    - intros (I1 & I2 & I3). apply existsb_exists in I1. destruct I1 as (k' & I1 & Q). exists l, k'. split; [auto|]. split; [|auto]. apply BI. rewrite ignored_one, (column_eq q k k' Q). split; [auto|]. split; [|auto].
      apply Bool.not_true_iff_false. intros K. assert (py_eq f k = true); [|congruence]. eapply py_eq_trans; eauto. }
  intros k b0 K. rewrite (BF a l1 k b0 B1), (BF b l2 k b0 B2). destruct (proj2 SHR k K) as [-> ->]. tauto.
Qed.
Print Assumptions C99_idle_column.

(** The two models also predict alike, on any data with the features of the model *)
Lemma added_apart X' y' cf' names' f vs ix fr fr' g A B : training_input X' y' cf' names' f vs ix -> table_of X' names' fr' -> one_more f g A B fr fr' -> forall k, In k (A ++ B) -> py_eq g k = false.
Proof.
  intros T' TB' OM. destruct (input_pre _ _ _ _ _ _ _ T') as (b & Gb & Hb & Cb & Lb & NEb & TDb & Pb).
  assert (D : distinct_cols (A ++ g :: B)).
  { rewrite <- (om_cols' _ _ _ _ _ _ OM). destruct (drop_col_good _ _ _ Gb (raw_drop _ _ _ _ _ _ _ _ _ T' TB' TDb)) as ([_ D] & _). exact D. }
  intros k I. apply Bool.not_true_iff_false. intros Q. assert (NG : nth_error (A ++ g :: B) (length A) = Some g) by (rewrite nth_error_app2, Nat.sub_diag by lia; reflexivity).
  apply in_app_or in I. destruct I as [I|I]; destruct (In_nth_error _ _ I) as (i & N).
  - assert (LI : i < length A) by (apply nth_error_Some; congruence). assert (NK : nth_error (A ++ g :: B) i = Some k) by (rewrite nth_error_app1; auto). specialize (D _ _ _ _ NG NK Q). lia.
  - assert (NK : nth_error (A ++ g :: B) (length A + S i) = Some k) by (rewrite nth_error_app2 by lia; replace (length A + S i - length A) with (S i) by lia; exact N). specialize (D _ _ _ _ NG NK Q). lia.
Qed.
Theorem C99_same_predictions : forall w cl X y cf names X' y' cf' names' f vs ix fr fr' g A B pc kw c1 c2 sel bt1 bt2 Z znames fr2,
  world_ok w -> c_alg cl = IREP_ ->
  training_input X y cf names f vs ix -> training_input X' y' cf' names' f vs ix -> NoDup ix ->
  table_of X names fr -> table_of X' names' fr' -> one_more f g A B fr fr' ->
  let h := hyper_of cl kw in
  adds_nothing (h_nbins h) fr' g A ->
  (0 <= h_prune h)%Q -> (h_prune h <= 1)%Q -> (h_nbins h = None \/ exists n, h_nbins h = Some n /\ (0 <= n)%Z) ->
  fit w cl X y cf pc names MNone true kw = (c1, Ok tt) -> fit w cl X' y' cf' pc names' MNone true kw = (c2, Ok tt) ->
  c_sel c1 = Some sel -> c_bt c1 = Some bt1 -> c_bt c2 = Some bt2 ->
  prediction_input Z znames f fr2 -> good_frame fr2 -> frows fr2 <> [] -> distinct_labels fr2 -> (forall k, In k sel -> usable fr2 f k) -> binnable bt1 fr2 f -> binnable bt2 fr2 f ->
  exists preds, clf_predict c1 Z znames = (c1, Ok preds) /\ clf_predict c2 Z znames = (c2, Ok preds).
Proof.
  intros w cl X y cf names X' y' cf' names' f vs ix fr fr' g A B pc kw c1 c2 sel bt1 bt2 Z znames fr2 WO AL T T' ND TB TB' OM h AN P0 P1 NB H1 H2 SEL BT1 BT2 PI G NE DL US BN1 BN2.
  destruct (C99_idle_column _ _ _ _ _ _ _ _ _ _ _ _ _ _ _ _ _ _ _ _ _ _ WO AL T T' ND TB TB' OM AN P0 P1 NB H1) as (c & x1 & x2 & t1 & t2 & F & R1 & R2 & RR & _ & SS & _ & _ & Q1 & Q2 & QB).
  rewrite H2 in F. injection F as <-. rewrite BT1 in Q1. injection Q1 as <-. rewrite BT2 in Q2. injection Q2 as <-. rewrite SEL in SS. symmetry in SS.
  destruct (C55_fitted_predict_partial _ _ _ _ _ _ _ _ _ _ _ _ _ _ x1 _ bt1 Z znames fr2 WO T ND P0 P1 NB H1 R1 SEL BT1 PI G NE DL BN1 US) as (p1 & E1 & F1).
  destruct (C55_fitted_predict_partial _ _ _ _ _ _ _ _ _ _ _ _ _ _ x2 _ bt2 Z znames fr2 WO T' ND P0 P1 NB H2 R2 SS BT2 PI G NE DL BN2 US) as (p2 & E2 & F2).
  destruct (C84_feature_lists _ _ _ _ _ _ _ _ _ _ _ _ _ _ WO T ND P0 P1 NB H1 TB) as (x & s & bt & A1 & _ & _ & A3 & A4 & _ & A5 & _).
  rewrite R1 in A1. injection A1 as <-. rewrite SEL in A3. injection A3 as <-.
  assert (AP : forall r c, In r (rs_rules x1) -> In c (conds r) -> py_eq g (cfeat c) = false).
  { intros r c I J. apply (added_apart _ _ _ _ _ _ _ _ _ _ _ _ T' TB' OM). rewrite <- (om_cols _ _ _ _ _ _ OM). apply A4. eapply A5; eauto. }
  assert (SH : forall k v u, py_eq g k = false -> (shown bt1 k v u <-> shown bt2 k v u)).
  { intros k v u K. unfold shown. split; (intros [S|[[S E]|[S (ivs & I & O)] ] ]; [left; exact S|right; left; split; [intros b Hb; apply (S b), (QB k b K), Hb|exact E]|right; right; split; [exact S|exists ivs; split; [apply (QB k _ K), I|exact O] ] ]). }
  assert (PP : p1 = p2).
  { clear - F1 F2 RR AP SH. rewrite <- RR in F2. revert p2 F2. induction F1 as [|rw u l p1 H F IH]; intros p2 F2; inversion F2 as [|? u2 ? p2' H2 F2']; subst; [reflexivity|]. f_equal; [|auto].
    apply Bool.eq_true_iff_eq. rewrite H, H2. unfold some_holds, holds, sees.
    split; intros (r & I & K); exists r; (split; [exact I|]); intros c J; destruct (K c J) as (u' & (v & V & S) & E); exists u'; (split; [exists v; split; [exact V|apply (SH _ _ _ (AP r c I J)); exact S]|exact E]). }
  subst p2. exists p1. auto.
Qed.
Print Assumptions C99_same_predictions.

(** Non-vacuity: the table of shops with a recoding of the text column between the two features, and with a copy of the (discretised) number column after them *)
Definition shops_u : frame := mk_df [s_ "sold"; s_ "u"; s_ "w"; s_ "v"] [10; 11; 12; 13; 14; 15; 16] sold
  [[s_ "b"; PInt 7; PInt 4]; [s_ "b"; PInt 7; PDec 25 1]; [s_ "a"; PInt 8; PInt 3]; [s_ "b"; PInt 7; PInt (-1)]; [s_ "a"; PInt 8; PInt (-1)]; [s_ "b"; PInt 7; PInt 1]; [s_ "b"; PInt 7; PInt 3]].
Definition shops_v : frame := mk_df [s_ "sold"; s_ "u"; s_ "v"; s_ "w"] [10; 11; 12; 13; 14; 15; 16] sold
  [[s_ "b"; PInt 4; PInt 4]; [s_ "b"; PDec 25 1; PDec 25 1]; [s_ "a"; PInt 3; PInt 3]; [s_ "b"; PInt (-1); PInt (-1)]; [s_ "a"; PInt (-1); PInt (-1)]; [s_ "b"; PInt 1; PInt 1]; [s_ "b"; PInt 3; PInt 3]].
Lemma more_input fr : fr = shops_u \/ fr = shops_v -> training_input (DFrame fr) None (Some (s_ "sold")) None (s_ "sold") sold [10; 11; 12; 13; 14; 15; 16].
Proof.
  intros A. apply (input_column _ _ _ _ _ _ _ fr); [reflexivity|reflexivity|apply table_frame|apply good_frameb_ok; destruct A; subst fr; vm_compute; reflexivity|destruct A; subst fr; discriminate|exists (s_ "sold"); split; [destruct A; subst fr; left; reflexivity|reflexivity]|split; [destruct A; subst fr; reflexivity|]|destruct A; subst fr; reflexivity].
  intros i rw v H1 H2. destruct A; subst fr; (do 7 (destruct i as [|i]; [injection H1 as <-; injection H2 as <-; exists 0, (s_ "sold"); repeat split; reflexivity|]); destruct i; discriminate).
Qed.
Lemma marks_same fr g h v u : distinct_cols (fcols fr) ->
  forallb (fun s => match cell (fcols fr) g s, cell (fcols fr) h s with Some w, Some w' => Bool.eqb (py_eq w v) (py_eq w' u) | _, _ => false end) (frows fr) = true ->
  forall s w, In s (frows fr) -> value_at (fcols fr) s g w -> (py_eq w v = true <-> exists w', value_at (fcols fr) s h w' /\ py_eq w' u = true).
Proof.
  intros D F s w I V. rewrite forallb_forall in F. specialize (F s I). apply cell_value_at in V; auto. rewrite V in F. destruct (cell (fcols fr) h s) as [w'|] eqn:C; [|discriminate]. apply Bool.eqb_prop in F. rewrite F. split.
  - intros E. exists w'. split; [apply cell_value_at; auto|exact E].
  - intros (w2 & V2 & E). apply cell_value_at in V2; auto. congruence.
Qed.
Lemma distinct_b fr : good_frameb fr = true -> distinct_cols (fcols fr).
Proof. intros H. apply good_frameb_ok in H. apply H. Qed.
Lemma kept_b nb fr g : good_frameb fr = true -> column_present fr g ->
  (match nb with Some n => negb (is_numeric_col (column fr g) && (n <? Z.of_nat (length (unique (column fr g))))%Z) | None => true end) = true -> kept_as_is nb fr g.
Proof.
  intros G C H n cs -> _ CV [NU MT]. apply good_frameb_ok in G. destruct (col_values _ _ _ G C CV) as [_ E]. rewrite E in H. apply numeric_iff in NU. apply more_than_unique in MT. apply Z.ltb_lt in MT. rewrite NU, MT in H. discriminate.
Qed.
Lemma same_cells fr fr' h : good_frameb fr = true -> good_frameb fr' = true -> map (cell (fcols fr) h) (frows fr) = map (cell (fcols fr') h) (frows fr') ->
  forall i r r' v, nth_error (frows fr) i = Some r -> nth_error (frows fr') i = Some r' -> (value_at (fcols fr) r h v <-> value_at (fcols fr') r' h v).
Proof.
  intros G G' E i r r' v R R'. rewrite <- !cell_value_at by (apply distinct_b; auto). assert (K : nth_error (map (cell (fcols fr) h) (frows fr)) i = nth_error (map (cell (fcols fr') h) (frows fr')) i) by congruence.
  rewrite !nth_error_map, R, R' in K. injection K as ->. tauto.
Qed.
Lemma shops_more_u : one_more (s_ "sold") (s_ "w") [s_ "u"] [s_ "v"] shops shops_u.
Proof. split; [reflexivity|reflexivity|reflexivity|]. intros i r r' h v R R' I. eapply same_cells; eauto. destruct I as [<-|[<-|[] ] ]; reflexivity. Qed.
Lemma shops_more_v : one_more (s_ "sold") (s_ "w") [s_ "u"; s_ "v"] [] shops shops_v.
Proof. split; [reflexivity|reflexivity|reflexivity|]. intros i r r' h v R R' I. eapply same_cells; eauto. destruct I as [<-|[<-|[] ] ]; reflexivity. Qed.
Lemma present_b fr g : has_col fr g = true -> column_present fr g. Proof. apply has_col_iff. Qed.
Lemma shops_idle_u : adds_nothing (Some 2%Z) shops_u (s_ "w") [s_ "u"].
Proof.
  right. split; [apply kept_b; [reflexivity|apply present_b; reflexivity|reflexivity]|]. intros r v I V _. right. apply cell_value_at in V; [|apply distinct_b; reflexivity].
  assert (A : v = PInt 7 \/ v = PInt 8) by (do 7 (destruct I as [<-|I]; [injection V as <-; auto|]); destruct I).
  exists (s_ "u"), (if py_eq v (PInt 7) then s_ "b" else s_ "a"). split; [left; reflexivity|]. split; [apply kept_b; [reflexivity|apply present_b; reflexivity|reflexivity]|].
  apply marks_same; [apply distinct_b; reflexivity|]. destruct A; subst v; reflexivity.
Qed.
Lemma shops_idle_v : adds_nothing (Some 2%Z) shops_v (s_ "w") [s_ "u"; s_ "v"].
Proof.
  left. exists (s_ "v"). split; [right; left; reflexivity|]. intros r v I. rewrite <- !cell_value_at by (apply distinct_b; reflexivity).
  do 7 (destruct I as [<-|I]; [vm_compute; tauto|]). destruct I.
Qed.
Definition shops_full : clf := fst (fit w1 irep_full (DFrame shops) None (Some (s_ "sold")) (Some (PInt 1)) None MNone true []).
Lemma shops_full_ok : fit w1 irep_full (DFrame shops) None (Some (s_ "sold")) (Some (PInt 1)) None MNone true [] = (shops_full, Ok tt).
Proof. unfold shops_full. apply surjective_pairing_ok. vm_compute. reflexivity. Qed.
Lemma shops_full_rules : option_map (fun x => map rule_str (rs_rules x)) (c_rs shops_full) = Some [$"[u=b^v=>-1.0]"].
Proof. vm_compute. reflexivity. Qed.
Opaque shops_full.
Example C99_nonvacuous : forall fr', fr' = shops_u \/ fr' = shops_v ->
  exists c2 x1 x2, fit w1 irep_full (DFrame fr') None (Some (s_ "sold")) (Some (PInt 1)) None MNone true [] = (c2, Ok tt) /\
    c_rs shops_full = Some x1 /\ c_rs c2 = Some x2 /\ rs_rules x1 = rs_rules x2 /\ map rule_str (rs_rules x1) = [$"[u=b^v=>-1.0]"].
Proof.
  intros fr' F. assert (OM : exists A B, one_more (s_ "sold") (s_ "w") A B shops fr' /\ adds_nothing (Some 2%Z) fr' (s_ "w") A).
  { destruct F; subst fr'; do 2 eexists; (split; [apply shops_more_u || apply shops_more_v|apply shops_idle_u || apply shops_idle_v]). }
  destruct OM as (A & B & OM & AN).
  destruct (C99_idle_column w1 irep_full (DFrame shops) None (Some (s_ "sold")) None (DFrame fr') None (Some (s_ "sold")) None (s_ "sold") sold [10; 11; 12; 13; 14; 15; 16] shops fr' (s_ "w") A B
    (Some (PInt 1)) MNone [] shops_full w1_ok eq_refl shops_input (more_input _ F)) as (c2 & x1 & x2 & b1 & b2 & E & R1 & R2 & RR & _).
  - repeat constructor; cbn; intuition discriminate.
  - apply table_frame.
  - apply table_frame.
  - exact OM.
  - exact AN.
  - discriminate.
  - discriminate.
  - right. exists 2%Z. split; [reflexivity|discriminate].
  - exact shops_full_ok.
  - exists c2, x1, x2. do 4 (split; auto). pose proof shops_full_rules as S. rewrite R1 in S. cbn [option_map] in S. injection S as S. exact S.
Qed.
Transparent shops_full.
(** ... and the two models predict alike on new data *)
Definition shops_copy : clf := fst (fit w1 irep_full (DFrame shops_v) None (Some (s_ "sold")) (Some (PInt 1)) None MNone true []).
Lemma shops_copy_ok : fit w1 irep_full (DFrame shops_v) None (Some (s_ "sold")) (Some (PInt 1)) None MNone true [] = (shops_copy, Ok tt).
Proof. unfold shops_copy. apply surjective_pairing_ok. vm_compute. reflexivity. Qed.
Definition two_bins : list str := [$"<-1.0"; $">-1.0"].
Lemma shops_full_bt : c_bt shops_full = Some (mkbt (Some [(s_ "v", two_bins)]) []). Proof. vm_compute. reflexivity. Qed.
Lemma shops_copy_bt : c_bt shops_copy = Some (mkbt (Some [(s_ "v", two_bins); (s_ "w", two_bins)]) []). Proof. vm_compute. reflexivity. Qed.
Lemma shops_full_sel : c_sel shops_full = Some [s_ "u"; s_ "v"]. Proof. vm_compute. reflexivity. Qed.
Definition new_shops : frame := mkframe [s_ "v"; s_ "u"] [mkrow 0 [PInt 5; s_ "b"]; mkrow 1 [PInt (-3); s_ "b"]; mkrow 2 [PInt 2; s_ "a"]].
Lemma new_says : snd (clf_predict shops_full (DFrame new_shops) None) = Ok [true; false; false]. Proof. vm_compute. reflexivity. Qed.
Lemma new_binnable l : (forall k, In k (map fst l) -> k = s_ "v" \/ k = s_ "w") -> binnable (mkbt (Some l) []) new_shops (s_ "sold").
Proof.
  intros K g b (l' & k & E & I & Q) (c & C & QC) _. cbn in E. injection E as <-. left. intros rw v R V.
  assert (KV : k = s_ "v" \/ k = s_ "w") by (apply K, in_map_iff; exists (k, b); auto).
  assert (KC : py_eq c k = true) by (eapply py_eq_trans; [exact QC|]; rewrite py_eq_sym; exact Q).
  destruct KV; subst k; (destruct C as [<-|[<-|[] ] ]; try discriminate KC).
  assert (V2 : value_at (fcols new_shops) rw (s_ "v") v). { destruct V as (j & d & N & QD & CE). exists j, d. split; [exact N|]. split; [eapply py_eq_trans; [exact QD|]; rewrite py_eq_sym; exact Q|exact CE]. }
  apply cell_value_at in V2; [|apply distinct_b; reflexivity]. left. destruct R as [<-|[<-|[<-|[] ] ] ]; injection V2 as <-; eexists; reflexivity.
Qed.
Opaque shops_full shops_copy.
Example C99_predictions_nonvacuous : exists preds, clf_predict shops_full (DFrame new_shops) None = (shops_full, Ok preds) /\ clf_predict shops_copy (DFrame new_shops) None = (shops_copy, Ok preds) /\ preds = [true; false; false].
Proof.
  destruct (C99_same_predictions w1 irep_full (DFrame shops) None (Some (s_ "sold")) None (DFrame shops_v) None (Some (s_ "sold")) None (s_ "sold") sold [10; 11; 12; 13; 14; 15; 16] shops shops_v (s_ "w") [s_ "u"; s_ "v"] []
    (Some (PInt 1)) [] shops_full shops_copy [s_ "u"; s_ "v"] (mkbt (Some [(s_ "v", two_bins)]) []) (mkbt (Some [(s_ "v", two_bins); (s_ "w", two_bins)]) []) (DFrame new_shops) None new_shops
    w1_ok eq_refl shops_input (more_input _ (or_intror eq_refl))) as (preds & E1 & E2).
  - repeat constructor; cbn; intuition discriminate.
  - apply table_frame.
  - apply table_frame.
  - exact shops_more_v.
  - exact shops_idle_v.
  - discriminate.
  - discriminate.
  - right. exists 2%Z. split; [reflexivity|discriminate].
  - exact shops_full_ok.
  - exact shops_copy_ok.
  - exact shops_full_sel.
  - exact shops_full_bt.
  - exact shops_copy_bt.
  - apply predict_plain; [reflexivity|apply table_frame].
  - apply good_frameb_ok. reflexivity.
  - discriminate.
  - repeat constructor; cbn; intuition discriminate.
  - intros g [<-|[<-|[] ] ]; (split; [eexists; split; [|apply py_eq_refl; discriminate]; cbn; auto|reflexivity]).
  - apply new_binnable. intros k [<-|[] ]. auto.
  - apply new_binnable. intros k [<-|[<-|[] ] ]; auto.
  - exists preds. do 2 (split; auto). pose proof new_says as S. rewrite E1 in S. cbn [snd] in S. injection S as S. exact S.
Qed.
Transparent shops_full shops_copy.

(** The side matters: a copy placed before the original is mentioned in its stead *)
Definition shops_front : frame := mk_df [s_ "sold"; s_ "w"; s_ "u"; s_ "v"] [10; 11; 12; 13; 14; 15; 16] sold
  [[s_ "b"; s_ "b"; PInt 4]; [s_ "b"; s_ "b"; PDec 25 1]; [s_ "a"; s_ "a"; PInt 3]; [s_ "b"; s_ "b"; PInt (-1)]; [s_ "a"; s_ "a"; PInt (-1)]; [s_ "b"; s_ "b"; PInt 1]; [s_ "b"; s_ "b"; PInt 3]].
Theorem C99_copy_in_front_refuted : one_more (s_ "sold") (s_ "w") [] [s_ "u"; s_ "v"] shops shops_front /\ adds_nothing (Some 2%Z) shops_front (s_ "w") [s_ "u"; s_ "v"] /\
  snd (fit w1 irep_full (DFrame shops_front) None (Some (s_ "sold")) (Some (PInt 1)) None MNone true []) = Ok tt /\
  option_map (fun x => map rule_str (rs_rules x)) (c_rs (fst (fit w1 irep_full (DFrame shops_front) None (Some (s_ "sold")) (Some (PInt 1)) None MNone true []))) = Some [$"[w=b^v=>-1.0]"].
Proof.
  split; [split; [reflexivity|reflexivity|reflexivity|]; intros i r r' h v R R' I; eapply same_cells; eauto; destruct I as [<-|[<-|[] ] ]; reflexivity|].
  split; [left; exists (s_ "u"); split; [left; reflexivity|]; intros r v I; rewrite <- !cell_value_at by (apply distinct_b; reflexivity); do 7 (destruct I as [<-|I]; [vm_compute; tauto|]); destruct I|].
  split; vm_compute; reflexivity.
Qed.
Print Assumptions C99_copy_in_front_refuted.

(** It is about IREP only: RIPPER counts the possible conditions, and a constant column makes it drop a rule *)
Definition const_rows : list (list pyval) := [[s_ "y"; s_ "x"]; [s_ "y"; s_ "y"]; [s_ "x"; s_ "y"]; [s_ "y"; s_ "y"]; [s_ "y"; s_ "z"]; [s_ "z"; s_ "z"]; [s_ "z"; s_ "x"]].
Definition const_y : ydata := YList [s_ "p"; s_ "p"; s_ "p"; s_ "p"; s_ "n"; s_ "n"; s_ "n"].
Definition const_fit (const : bool) : clf * res unit :=
  fit w1 (construct RIPPER_ [(P_prune, VQ (1 # 3))]) (DRows (if const then map (fun r => r ++ [s_ "k"]) const_rows else const_rows)) (Some const_y) (Some (s_ "class")) (Some (s_ "p"))
    (Some (if const then [s_ "a"; s_ "b"; s_ "c"] else [s_ "a"; s_ "b"])) MNone true [].
Theorem C99_ripper_refuted : world_ok w1 /\ snd (const_fit false) = Ok tt /\ snd (const_fit true) = Ok tt /\
  option_map (fun x => map rule_str (rs_rules x)) (c_rs (fst (const_fit false))) = Some [$"[b=x]"; $"[b=y]"] /\
  option_map (fun x => map rule_str (rs_rules x)) (c_rs (fst (const_fit true))) = Some [$"[b=x]"].
Proof. split; [exact w1_ok|]. do 3 (split; [vm_compute; reflexivity|]). vm_compute. reflexivity. Qed.
Print Assumptions C99_ripper_refuted.
