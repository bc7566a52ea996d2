(** * ClfFacts.v : predictions of a classifier (C46, C47, C56) *)
From Verif Require Export ClfSpec FitRun.
Open Scope nat_scope.

Lemma value_at_cell cols f rw w : distinct_cols cols -> (value_at cols rw f w <-> cell cols f rw = Some w).
Proof. intros D. symmetry. apply cell_value_at; auto. Qed.

Lemma remove_nth_nth {A} (l : list A) j k : nth_error (remove_nth j l) k = if k <? j then nth_error l k else nth_error l (S k).
Proof.
  revert j k. induction l as [|x l IH]; intros j k.
  - destruct (k <? j); destruct j, k; reflexivity.
  - destruct j as [|j]; [destruct k; reflexivity|]. destruct k as [|k]; [reflexivity|]. cbn [remove_nth nth_error]. rewrite IH.
    replace (S k <? S j) with (k <? j); [reflexivity|]. destruct (Nat.ltb_spec k j), (Nat.ltb_spec (S k) (S j)); auto; lia.
Qed.
Lemma remove_nth_value {A} (l : list A) j k x : k <> j -> nth_error l k = Some x -> nth_error (remove_nth j l) (if k <? j then k else pred k) = Some x.
Proof.
  intros N H. rewrite remove_nth_nth. destruct (Nat.ltb_spec k j) as [L|L].
  - destruct (Nat.ltb_spec k j); [auto|lia].
  - destruct (Nat.ltb_spec (pred k) j); [lia|]. destruct k; [lia|]. exact H.
Qed.

(** dropping the class column keeps the others *)
Lemma drop_col_values fr cf x : good_frame fr -> drop_col fr cf = Ok x ->
  (forall g, column_present x g <-> column_present fr g /\ py_eq cf g = false) /\
  forall i rw rd, nth_error (frows fr) i = Some rw -> nth_error (frows x) i = Some rd ->
    forall g w, py_eq cf g = false -> (value_at (fcols x) rd g w <-> value_at (fcols fr) rw g w).
Proof.
  intros [W D] H. unfold drop_col in H. destruct (col_pos (fcols fr) cf) as [j|] eqn:J; [|discriminate]. injection H as <-. cbn [fcols frows].
  destruct (col_pos_spec _ _ _ J) as (c & Hc & Ec).
  assert (NJ : forall k d g, nth_error (fcols fr) k = Some d -> py_eq d g = true -> py_eq cf g = false -> k <> j).
  { intros k d g Hd Ed N ->. rewrite Hc in Hd. injection Hd as <-. rewrite (py_eq_rewrite _ _ _ Ec) in Ed. congruence. }
  split.
  - intros g. unfold column_present. cbn [fcols]. split.
    + intros (d & I & E). apply In_nth_error in I. destruct I as (k & K). rewrite remove_nth_nth in K.
      assert (KK : exists m, m <> j /\ nth_error (fcols fr) m = Some d).
      { destruct (Nat.ltb_spec k j); [exists k|exists (S k)]; split; auto; lia. }
      destruct KK as (m & Nm & Hm). split; [exists d; split; auto; eapply nth_error_In; eauto|].
      apply Bool.not_true_iff_false. intros X. apply Nm. eapply D; [exact Hm|exact Hc|].
      eapply py_eq_trans; [exact E|]. rewrite py_eq_sym. eapply py_eq_trans; [exact Ec|exact X].
    + intros [(d & I & E) N]. exists d. split; auto. apply In_nth_error in I. destruct I as (k & K).
      eapply nth_error_In, remove_nth_value; [eapply NJ; eauto|exact K].
  - intros i rw rd Hi Hx g w N. rewrite nth_error_map, Hi in Hx. injection Hx as <-. unfold value_at. cbn [rcells]. split.
    + intros (k & d & Hk & E & Hw). rewrite remove_nth_nth in Hk, Hw. destruct (k <? j); eauto.
    + intros (k & d & Hk & E & Hw). assert (k <> j) by (eapply NJ; eauto). exists (if k <? j then k else pred k), d.
      split; [apply remove_nth_value; auto|]. split; auto. apply remove_nth_value; auto.
Qed.

Lemma picks_not_class cf l l' : picks (not_class cf) l l' -> filter (fun f => negb (py_eq f cf)) l = l'.
Proof.
  induction 1 as [|a l l' P H IH|a l l' P H IH]; cbn [filter]; auto; unfold not_class in P.
  - rewrite P. cbn. congruence.
  - apply Bool.not_false_iff_true in P. rewrite P. cbn. auto.
Qed.
Lemma pi_len X names cf fr : prediction_input X names cf fr -> data_len X = length (frows fr).
Proof. destruct 1; eapply table_len; eauto. Qed.
(** the frame before binning *)
Lemma prediction_df_spec X names cf fr : prediction_input X names cf fr -> good_frame fr ->
  exists fr1, prediction_df X cf names = Ok fr1 /\ good_frame fr1 /\ labels (frows fr1) = labels (frows fr) /\
    (forall g, py_eq cf g = false -> (column_present fr1 g <-> column_present fr g)) /\
    forall i rw rd, nth_error (frows fr) i = Some rw -> nth_error (frows fr1) i = Some rd ->
      forall g w, py_eq cf g = false -> (value_at (fcols fr1) rd g w <-> value_at (fcols fr) rw g w).
Proof.
  intros [-> T|l l' raw -> PK TR NC T] G; unfold prediction_df.
  - apply table_rename in T. cbn [rename] in T. injection T as T. rewrite T. cbn [option_map rename]. destruct (has_col fr cf) eqn:HC.
    + destruct (drop_col fr cf) as [x|] eqn:E.
      * destruct (drop_col_good _ _ _ G E) as (Gx & L & _). destruct (drop_col_values _ _ _ G E) as [P V]. exists x. cbn [bind].
        split; auto. split; auto. split; auto. split; auto. intros g N. rewrite P. tauto.
      * unfold drop_col in E. destruct (col_pos_has fr cf HC) as (j & J & _). rewrite J in E. discriminate.
    + exists fr. cbn [bind]. split; auto. split; auto. split; auto. split; [tauto|]. intros i rw rd H1 H2. rewrite H1 in H2. injection H2 as <-. tauto.
  - apply table_rename in TR. cbn [rename] in TR. injection TR as TR. rewrite TR.
    assert (HC : has_col raw cf = false) by (apply Bool.not_true_iff_false; rewrite has_col_iff; auto). rewrite HC. cbn [bind option_map].
    rewrite (picks_not_class _ _ _ PK). apply table_rename in T. rewrite TR in T. rewrite T. exists fr.
    split; auto. split; auto. split; auto. split; [tauto|]. intros i rw rd H1 H2. rewrite H1 in H2. injection H2 as <-. tauto.
Qed.

Lemma column_nth fr f i : good_frame fr -> has_col fr f = true -> nth_error (column fr f) i = option_map (cell_or (fcols fr) f) (nth_error (frows fr) i).
Proof. intros [W _] H. rewrite column_map by auto. apply nth_error_map. Qed.
Lemma value_column fr f i rw w : good_frame fr -> has_col fr f = true -> nth_error (frows fr) i = Some rw ->
  (value_at (fcols fr) rw f w <-> nth_error (column fr f) i = Some w).
Proof.
  intros G H N. rewrite column_nth, N by auto. cbn [option_map]. destruct G as [W D]. rewrite value_at_cell by auto. unfold cell_or.
  destruct (cell_some fr f rw W H) as (v & E); [eapply nth_error_In; eauto|]. rewrite E. split; congruence.
Qed.
Lemma number_col vs : (forall v, In v vs -> number v) -> is_text_col vs = false.
Proof.
  intros H. apply numeric_not_text. unfold is_numeric_col. apply forallb_forall. intros v I. destruct (H v I) as [(z & ->)|[(m & k & ->)| ->]]; reflexivity.
Qed.
Lemma label_col vs b : vs <> [] -> (forall v, In v vs -> exists s, v = PStr s /\ In s b) -> is_text_col vs = true.
Proof.
  intros N H. destruct vs as [|v vs]; [congruence|]. destruct (H v) as (s & -> & _); [left; auto|]. reflexivity.
Qed.

Lemma bins_unique {A} (bins : list (pyval * A)) f b b' g g' : distinct_keys bins -> In (g, b) bins -> In (g', b') bins -> py_eq g f = true -> py_eq g' f = true -> g = g' /\ b = b'.
Proof.
  intros D I I' E E'. assert (K : py_eq g g' = true). { eapply py_eq_trans; [exact E|]. rewrite py_eq_sym; auto. }
  unfold distinct_keys in D. induction D as [|p l F D IH]; [contradiction|]. rewrite Forall_forall in F.
  destruct I as [I|I], I' as [I'|I'].
  - subst p. injection I' as -> ->. auto.
  - subst p. specialize (F _ I'). cbn in F. congruence.
  - subst p. specialize (F _ I). cbn in F. rewrite py_eq_sym in F. congruence.
  - apply IH; auto.
Qed.

Lemma binned_fun ivs v o o' : binned ivs v o -> binned ivs v o' -> o = o'.
Proof.
  unfold binned. destruct (num_of v) as [x|]; [|congruence].
  intros [(p & b & q & -> & C & N & ->)|[N ->]] [(p' & b' & q' & E & C' & N' & ->)|[N' ->]]; auto.
  - assert (I : In b' (p ++ b :: q)) by (rewrite E; apply in_elt). apply in_app_or in I. destruct I as [I|[->|I]]; auto; exfalso; eapply N; [|exact C'|..|exact C']; apply in_or_app; auto.
  - exfalso. eapply N'; [apply in_elt|exact C].
  - exfalso. subst. eapply N; [apply in_elt|exact C'].
Qed.

(** binning a frame: succeeds, same shape, every cell as shown *)
Lemma transform_shown bt fr cf : sound_bt bt -> good_frame fr -> frows fr <> [] -> ~ column_present fr cf -> binnable bt fr cf ->
  exists df, (if bt_bool bt then transform bt fr else Ok fr) = Ok df /\ good_frame df /\ labels (frows df) = labels (frows fr) /\ fcols df = fcols fr /\
    forall i rw rd, nth_error (frows fr) i = Some rw -> nth_error (frows df) i = Some rd ->
      forall g w, column_present fr g -> (value_at (fcols df) rd g w <-> sees bt (fcols fr) rw g w).
Proof.
  intros S G NE NC B.
  assert (ID : (forall f b, ~ bins_for bt f b) -> forall i rw rd, nth_error (frows fr) i = Some rw -> nth_error (frows fr) i = Some rd ->
      forall g w, column_present fr g -> (value_at (fcols fr) rd g w <-> sees bt (fcols fr) rw g w)).
  { intros NB i rw rd H1 H2 g w _. rewrite H1 in H2. injection H2 as <-. unfold sees, shown. split.
    - intros V. exists w. split; auto.
    - intros (v & V & [[_ ->]|[[_ ->]|(_ & ivs & F & _)]]); auto. exfalso. eapply NB; eauto. }
  destruct S as [N|(bins & EB & DK & T & OK)].
  - assert (E : bt_bool bt = false) by (unfold bt_bool; rewrite N; auto). rewrite E. exists fr. split; [auto|]. split; [auto|]. split; [auto|]. split; [auto|]. apply ID.
      intros f b (bins & g & X & _); congruence.
  - destruct (bt_bool bt) eqn:E.
    2:{ assert (bins = []) as ->. { unfold bt_bool in E. rewrite EB in E. destruct bins; auto; discriminate. }
        exists fr. split; [auto|]. split; [auto|]. split; [auto|]. split; [auto|]. apply ID. intros f b (bs & g & X & I & _); rewrite EB in X; injection X as <-; contradiction. }
    assert (CL : forall g b, In (g, b) bins -> has_col fr g = true ->
        (is_text_col (column fr g) = false /\ forall v, In v (column fr g) -> number v) \/
        (is_text_col (column fr g) = true /\ forall v, In v (column fr g) -> exists s, v = PStr s /\ In s b)).
    { intros g b I HC. assert (CP := HC). apply has_col_iff in CP.
      assert (GG : py_eq g g = true). { destruct CP as (c & _ & Ec). eapply py_eq_refl_r; eauto. }
      assert (NG : py_eq cf g = false). { apply Bool.not_true_iff_false. intros X. apply NC. destruct CP as (c & Ic & Ec). exists c. split; auto. eapply py_eq_trans; [exact Ec|]. rewrite py_eq_sym; auto. }
      assert (VC : forall v, In v (column fr g) -> exists rw, In rw (frows fr) /\ value_at (fcols fr) rw g v).
      { intros v Iv. apply In_nth_error in Iv. destruct Iv as (i & Hi). assert (X := Hi). rewrite column_nth in X by auto.
        destruct (nth_error (frows fr) i) as [rw|] eqn:En; [|discriminate]. exists rw. split; [eapply nth_error_In; eauto|]. eapply value_column; eauto. }
      destruct (B g b) as [NU|LB]; auto; [exists bins, g; auto| |].
      - left. assert (forall v, In v (column fr g) -> number v) by (intros v Iv; destruct (VC v Iv) as (rw & I1 & V); eapply NU; eauto). split; auto. apply number_col; auto.
      - right. assert (X : forall v, In v (column fr g) -> exists s, v = PStr s /\ In s b) by (intros v Iv; destruct (VC v Iv) as (rw & I1 & V); eapply LB; eauto).
        split; auto. eapply label_col; eauto. intros Z. apply (f_equal (@length pyval)) in Z. destruct G as [W _]. rewrite column_length in Z by auto. destruct (frows fr); [congruence|discriminate]. }
    assert (FT : exists done, find_transformed bins fr = Ok done).
    { unfold find_transformed. replace (forallb _ (filter _ bins)) with true; [eauto|]. symmetry. apply forallb_forall. intros [g b] I. apply filter_In in I.
      destruct I as [I P]. cbn [fst snd] in *. apply andb_prop in P. destruct P as [HC TX]. destruct (CL g b I HC) as [[X _]|[_ X]]; [congruence|].
      apply forallb_forall. intros v Iv. destruct (X v Iv) as (s & -> & Is). apply str_in_In; auto. }
    destruct FT as (done & FT).
    assert (TC : forall bs done fr0, (forall g b, In (g, b) bs -> exists ivs, b = map label ivs /\ in_order ivs) -> exists fr', transform_cols bt done bs fr0 = Ok fr').
    { clear -T. induction bs as [|[f b] t IH]; intros done fr0 H; cbn [transform_cols]; [eauto|].
      assert (H' : forall g b, In (g, b) t -> exists ivs, b = map label ivs /\ in_order ivs) by (intros; apply (H g); right; auto).
      destruct (_ && _); [|auto]. unfold transform_feat. rewrite T. cbn [assoc find option_map]. destruct (H f b) as (ivs & -> & O); [left; auto|].
      destruct (transform_exact ivs (column fr0 f) O) as (out & -> & _). cbn [bind]. auto. }
    destruct (TC bins done fr OK) as (df & ET'). assert (ET : transform bt fr = Ok df) by (unfold transform; rewrite EB, FT; exact ET').
    rewrite ET. exists df. destruct G as [W D]. destruct (transform_spec bt bins fr df EB DK W ET) as (T1 & T2 & T3 & T4 & T5 & T6).
    assert (G' : good_frame df) by (split; [auto|rewrite T1; auto]). assert (G : good_frame fr) by (split; auto).
    split; auto. split; auto. split; auto. split; auto.
    intros i rw rd H1 H2 g w CP. assert (HC : has_col fr g = true) by (apply has_col_iff; auto). assert (HC' : has_col df g = true) by (unfold has_col; rewrite T1; auto).
    rewrite (value_column df g i rd w G' HC' H2). unfold sees.
    assert (VV : forall v, value_at (fcols fr) rw g v <-> nth_error (column fr g) i = Some v) by (intros v; apply value_column; auto).
    assert (VE : exists v, nth_error (column fr g) i = Some v). { rewrite column_nth, H1 by auto. eexists; reflexivity. }
    destruct VE as (v & EV).
    assert (EQ : (exists v, value_at (fcols fr) rw g v /\ shown bt g v w) <-> shown bt g v w).
    { split; [intros (v' & V & SH); apply VV in V; rewrite EV in V; injection V as <-; auto|]. intros SH. exists v. split; auto. apply VV; auto. }
    rewrite EQ. clear EQ.
    destruct (existsb (fun p => py_eq (fst p) g) bins) eqn:EX.
    + apply existsb_exists in EX. destruct EX as ([f b] & If & Ef). cbn [fst] in Ef.
      assert (COL : forall fr0, column fr0 f = column fr0 g).
      { intros fr0. unfold column. apply flat_map_ext. intros r. unfold cell. rewrite (col_pos_py_eq (fcols fr0) f g Ef). reflexivity. }
      assert (HCf : has_col fr f = true). { unfold has_col. apply existsb_exists. destruct CP as (c & Ic & Ec). exists c. split; auto. eapply py_eq_trans; [exact Ec|]. rewrite py_eq_sym; auto. }
      destruct (OK f b If) as (ivs & -> & IO).
      assert (BU : forall b', bins_for bt g b' -> b' = map label ivs).
      { intros b' (bs & g' & X & I' & E'). rewrite EB in X. injection X as <-. eapply bins_unique in I'; [|exact DK|exact If|exact Ef|exact E']. destruct I'; auto. }
      destruct (CL f (map label ivs) If HCf) as [[TX NU]|[TX LB]].
      * destruct (T4 f _ If HCf TX) as (vs & TF & CV). unfold transform_feat in TF. rewrite T in TF. cbn [assoc find option_map] in TF.
        destruct (transform_exact ivs (column fr f) IO) as (out & TE & F2). rewrite TE in TF. injection TF as <-. rewrite COL in CV. rewrite CV. rewrite COL in F2, NU.
        assert (NV : number v) by (apply NU; eapply nth_error_In; eauto).
        assert (NS : forall s, v <> PStr s) by (intros s ->; destruct NV as [(z & X)|[(m & k & X)|X]]; discriminate).
        destruct (nth_error out i) as [o|] eqn:EO; [|exfalso; apply nth_error_None in EO; assert (LF := Forall2_length _ _ _ F2); rewrite <- LF in EO; assert (i < length (column fr g)) by (apply nth_error_Some; congruence); lia].
        assert (BO : binned ivs v o).
        { clear -F2 EV EO. revert i EV EO. induction F2 as [|a b l l' R F IH]; intros [|i] EV EO; try discriminate; cbn in *; [congruence|eauto]. }
        split.
        -- intros X. injection X as <-. right. right. split; auto. exists ivs. split; [exists bins, f; auto|]. auto.
        -- intros [[(s & ->) _]|[[NB _]|(_ & ivs' & BF & IO' & BI)]]; [congruence|exfalso; eapply NB; exists bins, f; eauto|].
           assert (EL := BU _ BF). f_equal. clear -EL IO IO' BI BO TE F2 EV EO.
           (* same labels: both outcomes are computed by the same function *)
           destruct (transform_exact ivs [v] IO) as (o1 & E1 & F1). destruct (transform_exact ivs' [v] IO') as (o2 & E2 & F3). rewrite EL, E1 in E2. injection E2 as <-.
           inversion F1 as [|? z1 ? ? R1 F1']; subst. inversion F1'; subst. inversion F3 as [|? z2 ? ? R2 F3']; subst.
           assert (Z1 : o = z1) by (eapply binned_fun; eauto). assert (Z2 : w = z1) by (eapply binned_fun; [exact BI|exact R2]). congruence.
      * destruct (T5 f _ If HCf TX) as [CE _]. rewrite !COL in CE. rewrite CE, EV. rewrite COL in LB. destruct (LB v) as (s & -> & Is); [eapply nth_error_In; eauto|].
        split; [intros X; injection X as <-; left; split; eauto|]. intros [[_ ->]|[[_ ->]|(NS & _)]]; auto. exfalso; eapply NS; eauto.
    + assert (NB : forall f b, In (f, b) bins -> py_eq f g = false).
      { intros f b If. apply Bool.not_true_iff_false. intros Ef. rewrite (proj2 (existsb_exists _ _)) in EX; [discriminate|]. exists (f, b). auto. }
      rewrite (T6 g NB), EV. split.
      * intros X. injection X as <-. right. left. split; auto. intros b (bs & f & X & If & Ef). rewrite EB in X. injection X as <-. rewrite (NB f b If) in Ef. discriminate.
      * intros [[_ ->]|[[_ ->]|(_ & ivs & (bs & f & X & If & Ef) & _)]]; auto. exfalso. rewrite EB in X. injection X as <-. rewrite (NB f _ If) in Ef. discriminate.
Qed.

Lemma no_class_column X names cf fr fr1 : prediction_input X names cf fr -> good_frame fr -> prediction_df X cf names = Ok fr1 ->
  (names = None -> ~ column_present fr1 cf).
Proof.
  intros [-> T|l l' raw -> PK TR NC T] G; unfold prediction_df; [|discriminate].
  intros H _. apply table_rename in T. cbn [rename] in T. injection T as T. rewrite T in H. cbn [option_map rename] in H. destruct (has_col fr cf) eqn:HC.
  - binv H. injection H as <-. destruct (drop_col_good _ _ _ G E) as (_ & _ & N & _). exact N.
  - cbn [bind] in H. injection H as <-. rewrite <- has_col_iff. congruence.
Qed.
Lemma named_no_class X l cf fr l' : picks (not_class cf) l l' -> table_of X (Some l') fr -> ~ column_present fr cf.
Proof.
  intros PK T (c & I & E). assert (fcols fr = l') as EL. { inversion T; subst; reflexivity. }
  rewrite EL in I. apply picks_not_class in PK. rewrite <- PK in I. apply filter_In in I. destruct I as [_ I]. rewrite E in I. discriminate.
Qed.
Lemma pi_no_class X names cf fr fr1 : prediction_input X names cf fr -> good_frame fr -> prediction_df X cf names = Ok fr1 -> ~ column_present fr1 cf.
Proof.
  intros PI G H. assert (K := no_class_column _ _ _ _ _ PI G H). destruct PI as [-> T|l l' raw -> PK TR NC T]; [auto|].
  unfold prediction_df in H. apply table_rename in TR. cbn [rename] in TR. injection TR as TR. rewrite TR in H.
  assert (HC : has_col raw cf = false) by (apply Bool.not_true_iff_false; rewrite has_col_iff; auto). rewrite HC in H. cbn [bind option_map] in H.
  rewrite (picks_not_class _ _ _ PK) in H. assert (T' := T). apply table_rename in T'. rewrite TR in T'. rewrite T' in H. injection H as <-.
  eapply named_no_class; eauto.
Qed.

(** the frame the rules see *)
Record views (bt : bin_transformer) (cf : pyval) (fr df : frame) : Prop := mkviews {
  vw_good : good_frame df; vw_labels : labels (frows df) = labels (frows fr);
  vw_present : forall f, usable fr cf f -> column_present df f;
  vw_cells : forall i rw rd, nth_error (frows fr) i = Some rw -> nth_error (frows df) i = Some rd ->
    forall f w, usable fr cf f -> (value_at (fcols df) rd f w <-> sees bt (fcols fr) rw f w) }.
Lemma prediction_frame_views cl x cf pc sel bt X names fr : ready cl x cf pc sel -> suits cl x cf sel bt X names fr ->
  exists df, prediction_frame cl bt X names = Ok df /\ views bt cf fr df.
Proof.
  intros [R1 R2 R3 R4 R5] [PI G NE L SB B S1 S2].
  destruct (prediction_df_spec _ _ _ _ PI G) as (fr1 & E1 & G1 & L1 & P1 & V1).
  assert (NC := pi_no_class _ _ _ _ _ PI G E1).
  assert (LEN : length (frows fr1) = length (frows fr)) by (unfold labels in L1; apply (f_equal (@length nat)) in L1; rewrite !map_length in L1; auto).
  assert (B1 : binnable bt fr1 cf).
  { intros f b BF CP N. assert (CP0 : column_present fr f) by (apply P1; auto).
    assert (BACK : forall rd v, In rd (frows fr1) -> value_at (fcols fr1) rd f v -> exists rw, In rw (frows fr) /\ value_at (fcols fr) rw f v).
    { intros rd v I V. apply In_nth_error in I. destruct I as (i & Hi). assert (J : i < length (frows fr)) by (rewrite <- LEN; apply nth_error_Some; congruence).
      destruct (nth_error (frows fr) i) as [rw|] eqn:En; [|apply nth_error_None in En; lia]. exists rw. split; [eapply nth_error_In; eauto|]. eapply V1; eauto. }
    destruct (B f b BF CP0 N) as [NU|LB]; [left|right]; intros rd v I V; destruct (BACK rd v I V) as (rw & Irw & Vrw); eauto. }
  destruct (transform_shown bt fr1 cf SB G1) as (df & ET & GD & LD & FD & VD); auto.
  { intros Z. rewrite Z in LEN. destruct (frows fr); [congruence|discriminate]. }
  exists df. split.
  - unfold prediction_frame, attr. rewrite R2, R3, R4. cbn [bind]. destruct (c_feats cl); [|congruence]. cbn [bind]. unfold preprocess_prediction, check_input.
    rewrite (pi_len _ _ _ _ PI). destruct (Nat.eqb_spec (length (frows fr)) 0) as [Z|Z]; [destruct (frows fr); [congruence|discriminate]|]. cbn [negb bind]. rewrite E1. cbn [bind].
    replace (check_features fr1 sel) with (@Ok unit tt); [exact ET|]. unfold check_features. replace (forallb (has_col fr1) sel) with true; auto. symmetry. apply forallb_forall.
    intros f If. apply has_col_iff. destruct (S1 f If). apply P1; auto.
  - constructor; [auto|congruence| |].
    + intros f [CP N]. assert (X1 : column_present fr1 f) by (apply P1; auto). unfold column_present. rewrite FD. exact X1.
    + intros i rw rd Hi Hd f w [CP N]. assert (J : i < length (frows fr1)) by (rewrite LEN; apply nth_error_Some; congruence).
      destruct (nth_error (frows fr1) i) as [r1|] eqn:En; [|apply nth_error_None in En; lia].
      rewrite (VD i r1 rd En Hd f w) by (apply P1; auto). unfold sees. split; intros (v & V & SH); exists v; split; auto; eapply V1; eauto.
Qed.
Lemma views_length bt cf fr df : views bt cf fr df -> length (frows df) = length (frows fr).
Proof. intros [_ L _ _]. unfold labels in L. apply (f_equal (@length nat)) in L. rewrite !map_length in L. auto. Qed.
Lemma views_rows bt cf fr df : views bt cf fr df -> forall P : row -> row -> Prop,
  (forall i rw rd, nth_error (frows fr) i = Some rw -> nth_error (frows df) i = Some rd -> P rw rd) -> Forall2 P (frows fr) (frows df).
Proof.
  intros V P. assert (L := views_length _ _ _ _ V). clear V. revert L. generalize (frows df) as k. generalize (frows fr) as l.
  induction l as [|a l IH]; intros [|b k] L H; try discriminate; constructor.
  - apply (H 0); reflexivity.
  - apply IH; [cbn in L; lia|]. intros i. apply (H (S i)).
Qed.
Lemma views_sat bt cf fr df r i rw rd : views bt cf fr df -> (forall c, In c (conds r) -> usable fr cf (cfeat c)) ->
  nth_error (frows fr) i = Some rw -> nth_error (frows df) i = Some rd -> (sat_rule (fcols df) rd r <-> holds bt (fcols fr) rw r).
Proof.
  intros V U Hi Hd. unfold sat_rule, sat_conds, holds, sat_cond. split; intros H c Ic; destruct (H c Ic) as (w & Hw & E); exists w; split; auto; eapply vw_cells; eauto.
Qed.
Lemma suits_conds cl x cf sel bt X names fr r : suits cl x cf sel bt X names fr -> In r (rs_rules x) -> forall c, In c (conds r) -> usable fr cf (cfeat c).
Proof. intros S I c Ic. eapply su_rules; eauto. exists r, c; auto. Qed.
Lemma suits_present cl x cf sel bt X names fr df : suits cl x cf sel bt X names fr -> views bt cf fr df -> features_present df (rs_rules x).
Proof. intros S V f M. eapply vw_present; eauto. eapply su_rules; eauto. Qed.
Lemma suits_distinct cl x cf sel bt X names fr df : suits cl x cf sel bt X names fr -> views bt cf fr df -> distinct_labels df.
Proof. intros S V. unfold distinct_labels. rewrite (vw_labels _ _ _ _ V). eapply su_labels; eauto. Qed.
Lemma Forall2_trans {A B C} (R : A -> B -> Prop) (S : B -> C -> Prop) (T : A -> C -> Prop) l k m :
  (forall a b c, R a b -> S b c -> T a c) -> Forall2 R l k -> Forall2 S k m -> Forall2 T l m.
Proof. intros H F. revert m. induction F; intros m F'; inversion F'; subst; constructor; eauto. Qed.

(** predictions on the data as the rules see it *)
Lemma views_predict cl x cf sel bt X names fr df : suits cl x cf sel bt X names fr -> views bt cf fr df ->
  exists preds, rs_predict (rs_rules x) df = Ok preds /\ Forall2 (fun rw p => p = true <-> some_holds bt (fcols fr) rw (rs_rules x)) (frows fr) preds.
Proof.
  intros S V. destruct (predict_is_dnf (rs_rules x) df (vw_good _ _ _ _ V) (suits_distinct _ _ _ _ _ _ _ _ _ S V) (suits_present _ _ _ _ _ _ _ _ _ S V)) as (preds & E & F).
  exists preds. split; auto. eapply Forall2_trans; [|eapply (views_rows _ _ _ _ V (fun rw rd => forall r, In r (rs_rules x) -> (sat_rule (fcols df) rd r <-> holds bt (fcols fr) rw r)))|exact F].
  - cbv beta. intros a b p H HP. rewrite HP. unfold sat_ruleset, some_holds. split; intros (r & I & K); exists r; split; auto; apply (H r I); auto.
  - intros i rw rd Hi Hd r I. eapply views_sat; eauto. eapply suits_conds; eauto.
Qed.
Lemma views_reasons cl x cf sel bt X names fr df : suits cl x cf sel bt X names fr -> views bt cf fr df ->
  exists preds reasons, rs_predict_reasons (rs_rules x) df = Ok (preds, reasons) /\ rs_predict (rs_rules x) df = Ok preds /\
    Forall2 (fun rw rr => picks (holds bt (fcols fr) rw) (rs_rules x) rr) (frows fr) reasons.
Proof.
  intros S V. destruct (reasons_exact (rs_rules x) df (vw_good _ _ _ _ V) (suits_distinct _ _ _ _ _ _ _ _ _ S V) (suits_present _ _ _ _ _ _ _ _ _ S V)) as (preds & reasons & E & E2 & F & _).
  exists preds, reasons. split; auto. split; auto. eapply Forall2_trans; [|eapply (views_rows _ _ _ _ V (fun rw rd => forall r, In r (rs_rules x) -> (sat_rule (fcols df) rd r <-> holds bt (fcols fr) rw r)))|exact F].
  - cbv beta. intros a b p H HP. clear -H HP. induction HP; constructor; auto; try (rewrite <- H; auto; left; auto; fail); try (apply IHHP; intros; apply H; right; auto).
  - intros i rw rd Hi Hd r I. eapply views_sat; eauto. eapply suits_conds; eauto.
Qed.

(** counting agreeing rows *)
Lemma tally_cons a b y ys p ps : tally a b (y :: ys) (p :: ps) = (if Bool.eqb y a && Bool.eqb p b then 1 else 0) + tally a b ys ps.
Proof. unfold tally. cbn [combine filter fst snd]. destruct (_ && _); reflexivity. Qed.
Lemma count_tally P pc rows ys preds a b : Forall2 (fun rw p => p = true <-> P rw) rows preds -> length ys = length rows ->
  counted P pc rows ys a b (tally a b (map (fun v => py_eq v pc) ys) preds).
Proof.
  intros F. revert ys. induction F as [|rw p rows preds H F IH]; intros [|y ys] L; try discriminate.
  - exists []. split; [constructor|reflexivity].
  - injection L as L. destruct (IH ys L) as (l & K & E). cbn [map combine]. rewrite tally_cons.
    destruct (Bool.eqb (py_eq y pc) a && Bool.eqb p b) eqn:EE.
    + apply andb_prop in EE. destruct EE as [E1 E2]. apply Bool.eqb_prop in E1, E2. exists ((rw, y) :: l). split; [|cbn; rewrite E; reflexivity].
      constructor; auto. cbn [fst snd]. split; auto. subst b. symmetry. exact H.
    + exists l. split; [|rewrite E; reflexivity]. apply picks_no; auto. cbn [fst snd]. intros [E1 E2]. apply Bool.andb_false_iff in EE. destruct EE as [EE|EE].
      * rewrite E1, Bool.eqb_reflx in EE. discriminate.
      * apply Bool.eqb_false_iff in EE. apply EE. apply eq_true_iff_eq. rewrite H. exact E2.
Qed.
Lemma agree_tally (P : row -> Prop) pc rows ys preds : Forall2 (fun rw p => p = true <-> P rw) rows preds -> length ys = length rows ->
  exists l, picks (fun ry => P (fst ry) <-> py_eq (snd ry) pc = true) (combine rows ys) l /\
    length l = tally true true (map (fun v => py_eq v pc) ys) preds + tally false false (map (fun v => py_eq v pc) ys) preds.
Proof.
  intros F. revert ys. induction F as [|rw p rows preds H F IH]; intros [|y ys] L; try discriminate.
  - exists []. split; [constructor|reflexivity].
  - injection L as L. destruct (IH ys L) as (l & K & E). cbn [map combine]. rewrite !tally_cons.
    destruct (py_eq y pc) eqn:EY, p; cbn [Bool.eqb andb].
    + exists ((rw, y) :: l). split; [|cbn; lia]. constructor; auto. cbn [fst snd]. rewrite EY, <- H. tauto.
    + exists l. split; [|lia]. apply picks_no; auto. cbn [fst snd]. rewrite EY, <- H. intros [_ X]. discriminate X; auto.
    + exists l. split; [|lia]. apply picks_no; auto. cbn [fst snd]. rewrite EY, <- H. intros [X _]. discriminate X; auto.
    + exists ((rw, y) :: l). split; [|cbn; lia]. constructor; auto. cbn [fst snd]. rewrite EY, <- H. tauto.
Qed.
Lemma score_perf P pc rows ys preds : Forall2 (fun rw p => p = true <-> P rw) rows preds -> length ys = length rows ->
  let acts := map (fun v => py_eq v pc) ys in
  exists p r, score_precision acts preds = Ok p /\ score_recall acts preds = Ok r /\ performance P pc rows ys (p, r, f1_of p r).
Proof.
  intros F L acts. assert (LL : length acts = length preds) by (unfold acts; rewrite map_length, L; eapply Forall2_length; eauto).
  destruct (precision_value acts preds LL) as [P0 P1], (recall_value acts preds LL) as [R0 R1], (f1_value acts preds LL) as [F0 F1]. cbv zeta in *.
  assert (EP : exists p, score_precision acts preds = Ok p /\ fraction p (tally true true acts preds) (tally true true acts preds + tally false true acts preds)).
  { destruct (Nat.eq_dec (tally true true acts preds + tally false true acts preds) 0) as [Z|Z].
    - exists None. split; auto. split; [auto|congruence].
    - destruct (P1 Z) as (q & E & V & _). exists (Some q). split; auto. split; [congruence|]. eauto. }
  assert (ER : exists p, score_recall acts preds = Ok p /\ fraction p (tally true true acts preds) (tally true true acts preds + tally true false acts preds)).
  { destruct (Nat.eq_dec (tally true true acts preds + tally true false acts preds) 0) as [Z|Z].
    - exists None. split; auto. split; [auto|congruence].
    - destruct (R1 Z) as (q & E & V & _). exists (Some q). split; auto. split; [congruence|]. eauto. }
  destruct EP as (p & EP & FP), ER as (r & ER & FR). exists p, r. split; auto. split; auto.
  exists (tally true true acts preds), (tally false true acts preds), (tally true false acts preds). cbn [fst snd].
  split; [apply count_tally; auto|]. split; [apply count_tally; auto|]. split; [apply count_tally; auto|]. split; auto. split; auto.
  unfold score_f1 in F0, F1. rewrite LL, Nat.eqb_refl in F0, F1. cbn [negb] in F0, F1. rewrite EP, ER in F0, F1. cbn [bind] in F0, F1. split.
  - intros Z. specialize (F0 Z). congruence.
  - intros Z. destruct (F1 Z) as (q & E & V & _). exists q. split; [congruence|auto].
Qed.

(** one rule on the data as it is seen *)
Lemma Forall2_imp {A B} (R S : A -> B -> Prop) l k : (forall a b, R a b -> S a b) -> Forall2 R l k -> Forall2 S l k.
Proof. intros H. induction 1; constructor; auto. Qed.
Lemma views_rule cl x cf sel bt X names fr df r : suits cl x cf sel bt X names fr -> views bt cf fr df -> In r (rs_rules x) ->
  exists covered, rule_covers r df = Ok covered /\ fcols covered = fcols df /\ picks (fun rd => sat_rule (fcols df) rd r) (frows df) (frows covered) /\
    Forall2 (fun rw p => p = true <-> holds bt (fcols fr) rw r) (frows fr) (map (fun rd => nmem (rlab rd) (labels (frows covered))) (frows df)).
Proof.
  intros S V I. destruct (rule_covers_exact r df (vw_good _ _ _ _ V)) as (cov & E & FC & PK).
  { intros f (r' & c & [<-|[]] & Ic & ->). eapply vw_present; eauto. eapply su_rules; eauto. exists r, c; auto. }
  exists cov. split; auto. split; auto. split; auto.
  assert (F2 : Forall2 (fun rd p => p = true <-> sat_rule (fcols df) rd r) (frows df) (map (fun rd => nmem (rlab rd) (labels (frows cov))) (frows df))).
  { apply Forall2_map_self. intros rd Ird. rewrite nmem_In. unfold labels. rewrite in_map_iff. split.
    + intros (rd' & EL & I'). apply (picks_In _ _ _ _ PK) in I'. destruct I' as [I' SA].
      assert (rd' = rd) as ->; [|exact SA]. eapply NoDup_map_inj; [apply (suits_distinct _ _ _ _ _ _ _ _ _ S V)|..]; auto.
    + intros SA. exists rd. split; auto. apply (picks_In _ _ _ _ PK). auto. }
  eapply Forall2_trans; [|eapply (views_rows _ _ _ _ V (fun rw rd => sat_rule (fcols df) rd r <-> holds bt (fcols fr) rw r))|exact F2].
  - cbv beta. intros rw rd p H1 H2. rewrite H2. exact H1.
  - intros i rw rd Hi Hd. eapply views_sat; eauto. eapply suits_conds; eauto.
Qed.
