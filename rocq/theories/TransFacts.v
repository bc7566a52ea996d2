(** * TransFacts.v : BinTransformer.transform on frames (C51) *)
From Verif Require Export DiscFacts RipperFacts.
Open Scope nat_scope.

Definition cell_or (cols : list pyval) (f : pyval) (r : row) : pyval := match cell cols f r with Some v => v | None => PNaN end.
Lemma cell_some fr f rw : wf_frame fr -> has_col fr f = true -> In rw (frows fr) -> exists v, cell (fcols fr) f rw = Some v.
Proof.
  intros W H I. unfold cell. destruct (col_pos (fcols fr) f) as [j|] eqn:E.
  - destruct (nth_error (rcells rw) j) eqn:N; eauto. apply nth_error_None in N. rewrite (W rw I) in N.
    destruct (col_pos_spec _ _ _ E) as (c & Hc & _). assert (j < length (fcols fr)) by (apply nth_error_Some; congruence). lia.
  - apply col_pos_none in E. unfold has_col in H. congruence.
Qed.
Lemma column_map fr f : wf_frame fr -> has_col fr f = true -> column fr f = map (cell_or (fcols fr) f) (frows fr).
Proof.
  intros W H. unfold column. assert (G : forall rw, In rw (frows fr) -> exists v, cell (fcols fr) f rw = Some v) by (intros; apply cell_some; auto).
  induction (frows fr) as [|rw l IH]; cbn [flat_map map]; auto. unfold cell_or at 1. destruct (G rw) as (v & ->); [left; auto|].
  cbn [app]. f_equal. apply IH. intros; apply G; right; auto.
Qed.
Lemma column_length fr f : wf_frame fr -> has_col fr f = true -> length (column fr f) = length (frows fr).
Proof. intros W H. rewrite column_map, map_length; auto. Qed.

Lemma col_pos_has fr f : has_col fr f = true -> exists j, col_pos (fcols fr) f = Some j /\ j < length (fcols fr).
Proof.
  intros H. destruct (col_pos (fcols fr) f) as [j|] eqn:E.
  - exists j. split; auto. destruct (col_pos_spec _ _ _ E) as (c & Hc & _). apply nth_error_Some; congruence.
  - apply col_pos_none in E. unfold has_col in H. congruence.
Qed.
Lemma col_pos_differ cols f g j k : col_pos cols f = Some j -> col_pos cols g = Some k -> py_eq f g = false -> j <> k.
Proof.
  intros F G N ->. destruct (col_pos_spec _ _ _ F) as (c & Hc & Ec). destruct (col_pos_spec _ _ _ G) as (d & Hd & Ed).
  rewrite Hc in Hd. injection Hd as <-. rewrite (py_eq_rewrite _ _ _ Ec) in Ed. congruence.
Qed.

Lemma set_col_spec fr f vs : wf_frame fr -> has_col fr f = true -> length vs = length (frows fr) ->
  fcols (set_col fr f vs) = fcols fr /\ labels (frows (set_col fr f vs)) = labels (frows fr) /\ wf_frame (set_col fr f vs) /\
  column (set_col fr f vs) f = vs /\ forall g, py_eq f g = false -> column (set_col fr f vs) g = column fr g.
Proof.
  intros W H L. destruct (col_pos_has fr f H) as (j & E & J). unfold set_col. rewrite E. unfold wf_frame, column. cbn [with_rows fcols frows].
  split; [reflexivity|]. assert (W' : forall rw, In rw (frows fr) -> length (rcells rw) = length (fcols fr)) by apply W. clear W.
  revert vs L W'. induction (frows fr) as [|rw l IH]; intros [|v vs] L W'; try discriminate.
  - cbn. repeat split; auto; contradiction.
  - injection L as L. destruct (IH vs L) as (I1 & I2 & I3 & I4); [intros; apply W'; right; auto|].
    assert (WR : length (rcells rw) = length (fcols fr)) by (apply W'; left; auto).
    cbn [combine map labels flat_map frows fst snd rlab]. split; [cbn; f_equal; exact I1|]. split; [|split].
    + intros r [<-|Hr]; [cbn [rcells]; rewrite set_nth_length; auto|]. apply I2; auto.
    + unfold cell at 1. rewrite E. cbn [rcells]. rewrite set_nth_same by lia. cbn [app]. f_equal. exact I3.
    + intros g G. f_equal; [|apply I4; auto]. unfold cell. destruct (col_pos (fcols fr) g) as [k|] eqn:K; auto.
      cbn [rcells]. rewrite set_nth_other; auto. eapply col_pos_differ; eauto.
Qed.
Lemma set_col_empty fr f vs : frows fr = [] -> set_col fr f vs = fr.
Proof. intros E. unfold set_col. destruct (col_pos (fcols fr) f); auto. rewrite E. cbn. destruct fr; cbn in *; subst; reflexivity. Qed.

Lemma transform_feat_ok bt f b vs out : transform_feat bt f b vs = Ok out ->
  length out = length vs /\ forall o, In o out -> o = PNaN \/ exists s, o = PStr s /\ In s b.
Proof.
  unfold transform_feat. destruct (assoc f (bt_thresholds bt)) as [ths|].
  - unfold transform_numpy. revert out. induction vs as [|v vs IH]; cbn [mapM]; intros out H.
    + injection H as <-. split; auto. intros o [].
    + destruct (nth_error b _) eqn:N in H; [|discriminate]. cbn [bind] in H. binv H. rename v0 into out'. injection H as <-.
      destruct (IH out' E) as [L F]. split; [cbn; auto|]. intros o [<-|Ho]; auto. right. eexists; split; eauto. eapply nth_error_In; eauto.
  - unfold transform_pandas. intros H. binv H. rename v into ivs. destruct (any_overlap ivs); [discriminate|]. injection H as <-.
    split; [apply map_length|]. intros o Ho. apply in_map_iff in Ho. destruct Ho as (v & <- & _). unfold cut_value.
    destruct (num_of v); auto. destruct (find _ _) as [p|] eqn:F; auto. right. eexists; split; eauto.
    apply find_some in F. destruct F as [F _]. destruct p. eapply in_combine_r; eauto.
Qed.

Lemma transform_cols_spec bt done bins : distinct_keys bins -> forall fr fr', wf_frame fr -> transform_cols bt done bins fr = Ok fr' ->
  fcols fr' = fcols fr /\ labels (frows fr') = labels (frows fr) /\ wf_frame fr' /\
  (forall f b, In (f, b) bins -> has_col fr f = true -> existsb (fun g => py_eq g f) done = false ->
      exists vs, transform_feat bt f b (column fr f) = Ok vs /\ column fr' f = vs) /\
  (forall g, (forall f b, In (f, b) bins -> py_eq f g = true -> existsb (fun h => py_eq h f) done = true) -> column fr' g = column fr g).
Proof.
  induction 1 as [|[f b] t NF ND IH]; intros fr fr' W H; cbn [transform_cols] in H.
  - injection H as <-. repeat split; auto. intros f b [].
  - cbn [fst] in NF. rewrite Forall_forall in NF. destruct (has_col fr f && _) eqn:C in H.
    + apply andb_prop in C. destruct C as [HC ND']. apply Bool.negb_true_iff in ND'. binv H. rename v into vs.
      destruct (transform_feat_ok _ _ _ _ _ E) as [L _]. rewrite column_length in L by auto.
      destruct (set_col_spec fr f vs W HC L) as (S1 & S2 & S3 & S4 & S5).
      destruct (IH _ _ S3 H) as (I1 & I2 & I3 & I4 & I5). split; [congruence|]. split; [congruence|]. split; auto. split.
      * intros f0 b0 [E0|Hin] HC0 HD.
        -- injection E0 as <- <-. exists vs. split; auto. rewrite I5, S4; auto. intros f1 b1 H1 E1. exfalso.
           specialize (NF (f1, b1) H1). cbn [fst] in NF. rewrite py_eq_sym in NF. congruence.
        -- destruct (I4 f0 b0 Hin) as (ws & E0 & C0); auto. { unfold has_col. rewrite S1. exact HC0. }
           exists ws. split; auto. rewrite S5 in E0; auto. apply (NF _ Hin).
      * intros g G. rewrite I5; [|intros; eapply G; [right|]; eauto]. apply S5. apply Bool.not_true_iff_false. intros K.
        rewrite (G f b) in ND'; auto; [discriminate|left; auto].
    + destruct (IH _ _ W H) as (I1 & I2 & I3 & I4 & I5). split; auto. split; auto. split; auto. split.
      * intros f0 b0 [E0|Hin] HC0 HD; [|eapply I4; eauto]. injection E0 as <- <-. rewrite HC0, HD in C. discriminate.
      * intros g G. apply I5. intros; eapply G; [right|]; eauto.
Qed.
Lemma transform_cols_empty bt done bins fr fr' : frows fr = [] -> transform_cols bt done bins fr = Ok fr' -> fr' = fr.
Proof.
  revert fr. induction bins as [|[f b] t IH]; intros fr E H; cbn [transform_cols] in H; [congruence|].
  destruct (_ && _); [|auto]. binv H. rewrite set_col_empty in H; auto.
Qed.
Lemma transform_cols_skip bt done bins fr : (forall f b, In (f, b) bins -> has_col fr f = true -> existsb (fun g => py_eq g f) done = true) ->
  transform_cols bt done bins fr = Ok fr.
Proof.
  induction bins as [|[f b] t IH]; intros H; cbn [transform_cols]; auto.
  destruct (has_col fr f) eqn:C; [rewrite (H f b); auto; [|left; auto]|]; cbn [andb negb]; apply IH; intros; eapply H; [right| |right|]; eauto.
Qed.

Lemma find_transformed_ok bins fr done : find_transformed bins fr = Ok done ->
  forall f b, In (f, b) bins -> has_col fr f = true -> is_text_col (column fr f) = true ->
    In f done /\ forall v, In v (column fr f) -> exists s, v = PStr s /\ In s b.
Proof.
  unfold find_transformed. destruct (forallb _ _) eqn:F; [|discriminate]. intros H; injection H as <-. intros f b I C T.
  assert (X : In (f, b) (filter (fun p => has_col fr (fst p) && is_text_col (column fr (fst p))) bins)).
  { apply filter_In. cbn [fst]. rewrite C, T. auto. }
  split; [apply (in_map fst _ _ X)|]. intros v Hv. rewrite forallb_forall in F. specialize (F _ X). cbn [fst snd] in F.
  rewrite forallb_forall in F. specialize (F v Hv). destruct v; try discriminate. eexists; split; eauto. apply str_in_In; auto.
Qed.
Lemma find_transformed_done bins fr done g : find_transformed bins fr = Ok done -> In g done ->
  exists b, In (g, b) bins /\ has_col fr g = true /\ is_text_col (column fr g) = true.
Proof.
  unfold find_transformed. destruct (forallb _ _) eqn:F; [|discriminate]. intros H; injection H as <-. intros I.
  apply in_map_iff in I. destruct I as ([f b] & <- & I). apply filter_In in I. destruct I as [I C]. cbn [fst] in *.
  apply andb_prop in C. exists b. tauto.
Qed.

(** what transform does, column by column *)
Lemma transform_spec bt bins fr fr' : bt_bins bt = Some bins -> distinct_keys bins -> wf_frame fr -> transform bt fr = Ok fr' ->
  fcols fr' = fcols fr /\ labels (frows fr') = labels (frows fr) /\ wf_frame fr' /\
  (forall f b, In (f, b) bins -> has_col fr f = true -> is_text_col (column fr f) = false ->
      exists vs, transform_feat bt f b (column fr f) = Ok vs /\ column fr' f = vs) /\
  (forall f b, In (f, b) bins -> has_col fr f = true -> is_text_col (column fr f) = true ->
      column fr' f = column fr f /\ forall v, In v (column fr f) -> exists s, v = PStr s /\ In s b) /\
  (forall g, (forall f b, In (f, b) bins -> py_eq f g = false) -> column fr' g = column fr g).
Proof.
  intros B D W H. unfold transform in H. rewrite B in H. binv H. rename v into done.
  destruct (transform_cols_spec bt done bins D fr fr' W H) as (T1 & T2 & T3 & T4 & T5).
  assert (U : forall p q, In p bins -> In q bins -> py_eq (fst p) (fst q) = true -> p = q).
  { clear -D. induction D as [|a l F D IH]; intros p q Hp Hq E; [contradiction|]. rewrite Forall_forall in F.
    destruct Hp as [->|Hp], Hq as [->|Hq]; auto; exfalso.
    - rewrite (F q Hq) in E. discriminate.
    - rewrite py_eq_sym, (F p Hp) in E. discriminate. }
  split; auto. split; auto. split; auto. split; [|split].
  - intros f b I C T. apply T4; auto. apply Bool.not_true_iff_false. rewrite existsb_exists. intros (g & G & E0).
    destruct (find_transformed_done _ _ _ _ E G) as (b' & I' & _ & T').
    assert (X : (g, b') = (f, b)) by (apply U; auto). injection X as -> ->. congruence.
  - intros f b I C T. destruct (find_transformed_ok _ _ _ E f b I C T) as [F1 F2]. split; auto. apply T5.
    intros f0 b0 I0 E0. assert (X : (f0, b0) = (f, b)) by (apply U; auto). injection X as -> ->.
    apply existsb_exists. exists f. split; auto.
  - intros g G. apply T5. intros f b I E0. rewrite (G f b I) in E0. discriminate.
Qed.

Lemma transform_twice bt bins fr fr' : bt_bins bt = Some bins -> distinct_keys bins -> wf_frame fr -> transform bt fr = Ok fr' ->
  (forall f b, In (f, b) bins -> has_col fr' f = true -> ~ In PNaN (column fr' f)) -> transform bt fr' = Ok fr'.
Proof.
  intros B D W H N. destruct (transform_spec bt bins fr fr' B D W H) as (T1 & T2 & T3 & T4 & T5 & T6).
  destruct (frows fr) as [|rw rest] eqn:ER.
  { assert (H' := H). unfold transform in H'. rewrite B in H'. binv H'. apply transform_cols_empty in H'; auto. subst fr'. exact H. }
  assert (HC : forall f, has_col fr' f = has_col fr f) by (intros; unfold has_col; rewrite T1; reflexivity).
  assert (LR : length (frows fr') = S (length rest)).
  { unfold labels in T2. rewrite <- (map_length rlab (frows fr')), T2, map_length. reflexivity. }
  assert (A : forall f b, In (f, b) bins -> has_col fr' f = true ->
     is_text_col (column fr' f) = true /\ forall v, In v (column fr' f) -> exists s, v = PStr s /\ In s b).
  { intros f b I C. assert (X : forall v, In v (column fr' f) -> exists s, v = PStr s /\ In s b).
    { assert (C' := C). rewrite HC in C'. destruct (is_text_col (column fr f)) eqn:T.
      - destruct (T5 f b I C' T) as [-> F]. exact F.
      - destruct (T4 f b I C' T) as (vs & E & EC). destruct (transform_feat_ok _ _ _ _ _ E) as [_ F]. intros v Hv.
        rewrite <- EC in F. destruct (F v Hv) as [->|?]; auto. exfalso. eapply N; eauto. }
    split; auto. assert (LC := column_length fr' f T3 C). destruct (column fr' f) as [|v l]; [cbn in LC; lia|].
    destruct (X v) as (s & -> & _); [left; auto|]. reflexivity. }
  unfold transform. rewrite B. unfold find_transformed.
  assert (F : forallb (fun p : pyval * list str => forallb (fun v => match v with PStr s => str_in s (snd p) | _ => false end) (column fr' (fst p)))
    (filter (fun p => has_col fr' (fst p) && is_text_col (column fr' (fst p))) bins) = true).
  { apply forallb_forall. intros [f b] I. apply filter_In in I. destruct I as [I C]. cbn [fst snd] in *. apply andb_prop in C.
    apply forallb_forall. intros v Hv. destruct (A f b I (proj1 C)) as [_ X]. destruct (X v Hv) as (s & -> & S). apply str_in_In; auto. }
  rewrite F. cbn [bind]. apply transform_cols_skip. intros f b I C. apply existsb_exists. exists f. split.
  - apply in_map_iff. exists (f, b). split; auto. apply filter_In. cbn [fst]. rewrite C. split; auto. apply (A f b I C).
  - destruct (col_pos_has fr' f C) as (j & E & _). destruct (col_pos_spec _ _ _ E) as (c & _ & Ec). eapply py_eq_refl_r; eauto.
Qed.

(** a text column with a value that is no bin *)
Lemma transform_foreign bt bins fr f b v : bt_bins bt = Some bins -> In (f, b) bins -> has_col fr f = true ->
  is_text_col (column fr f) = true -> In v (column fr f) -> (forall s, v = PStr s -> ~ In s b) -> transform bt fr = Err ValueError.
Proof.
  intros B I C T Hv N. unfold transform. rewrite B. destruct (find_transformed bins fr) as [done|e] eqn:E.
  - destruct (find_transformed_ok _ _ _ E f b I C T) as [_ X]. destruct (X v Hv) as (s & -> & S). exfalso. eapply N; eauto.
  - unfold find_transformed in E. destruct (forallb _ _); [discriminate|]. injection E as <-. reflexivity.
Qed.
