(** * Relabel.v : fit sees the labels only through "is it the positive class", and never the name of the class column *)
From Verif Require Import ClfFacts FitFacts FitRun PrepFacts TrainView CallForm RelabelSpec.
Open Scope nat_scope.

(** rows with the same label, the same cells by name (class columns apart) and the same answer to "positive?" *)
Definition lrel (f f' p p' : pyval) (ca cb : list pyval) (ja jb : nat) (r s : row) : Prop :=
  rlab r = rlab s /\ (forall g, py_eq f g = false -> py_eq f' g = false -> cell ca g r = cell cb g s) /\ remove_nth ja (rcells r) = remove_nth jb (rcells s) /\
  cell_eq ca f p r = cell_eq cb f' p' s.
Record relabel (f f' p p' : pyval) (a b : frame) : Prop := mkrelabel {
  rl_a : good_frame a; rl_b : good_frame b;
  rl_drop : exists x, drop_col a f = Ok x /\ drop_col b f' = Ok x;
  rl_col : map (fun v => py_eq v p) (column a f) = map (fun v => py_eq v p') (column b f') }.

Lemma drop_has a f x : drop_col a f = Ok x -> has_col a f = true.
Proof.
  unfold drop_col. destruct (col_pos (fcols a) f) as [j|] eqn:J; [|discriminate]. intros _. apply col_pos_spec in J. destruct J as (c & J1 & J2).
  apply has_col_iff. exists c. split; auto. eapply nth_error_In; eauto.
Qed.
Section RL.
Variables (f f' p p' : pyval) (a b : frame).
Hypothesis RL : relabel f f' p p' a b.
Lemma rl_has_f : has_col a f = true /\ has_col b f' = true.
Proof. destruct RL as [_ _ (x & A & B) _]. split; eapply drop_has; eauto. Qed.
Lemma rl_rows : exists ja jb, col_pos (fcols a) f = Some ja /\ col_pos (fcols b) f' = Some jb /\ remove_nth ja (fcols a) = remove_nth jb (fcols b) /\
  Forall2 (lrel f f' p p' (fcols a) (fcols b) ja jb) (frows a) (frows b).
Proof.
  destruct rl_has_f as [Ha Hb]. destruct RL as [Ga Gb (x & A & B) C]. assert (A' := A). assert (B' := B). unfold drop_col in A, B.
  destruct (col_pos (fcols a) f) as [ja|] eqn:J; [|discriminate]. destruct (col_pos (fcols b) f') as [jb|] eqn:K; [|discriminate].
  apply ok_inj in A. apply ok_inj in B. subst x. injection B as B1 B2. exists ja, jb. split; auto. split; auto. split; auto.
  assert (LEN : length (frows a) = length (frows b)) by (apply (f_equal (@length row)) in B2; rewrite !map_length in B2; auto).
  apply Forall2_of_nth; auto. intros i r s R S.
  assert (N := f_equal (fun l => nth_error l i) B2). cbv beta in N. rewrite !nth_error_map, R, S in N. cbn [option_map] in N. injection N as N1 N2.
  split; [auto|]. split; [|split; [auto|] ].
  - intros g Q Q'. destruct (nth_same_len (map (fun r => mkrow (rlab r) (remove_nth ja (rcells r))) (frows a)) (frows a) i r) as (rx & X); [apply map_length|auto|].
    destruct (drop_col_values _ _ _ Ga A') as [_ Va]. destruct (drop_col_values _ _ _ Gb B') as [_ Vb]. cbn [frows fcols] in Va, Vb.
    apply option_ext. intros w. rewrite <- !value_at_cell by (apply Ga || apply Gb). rewrite <- (Va i r rx R X g w Q), <- (Vb i s rx S X g w Q'). tauto.
  - assert (M := f_equal (fun l => nth_error l i) C). cbv beta in M. rewrite !nth_error_map, !column_nth, R, S in M by auto. cbn [option_map] in M. injection M as M.
    destruct (cell_some a f r) as (v & V); [apply Ga|auto|eapply nth_error_In; eauto|]. destruct (cell_some b f' s) as (u & U); [apply Gb|auto|eapply nth_error_In; eauto|].
    unfold cell_eq, cell_or in *. rewrite V, U in *. exact M.
Qed.
Lemma rl_has g : py_eq f g = false -> py_eq f' g = false -> has_col a g = has_col b g.
Proof.
  intros Q Q'. destruct RL as [Ga Gb (x & A & B) _]. destruct (drop_col_values _ _ _ Ga A) as [Pa _]. destruct (drop_col_values _ _ _ Gb B) as [Pb _].
  destruct (has_col a g) eqn:Ha, (has_col b g) eqn:Hb; auto.
  - apply has_col_iff in Ha. assert (K : column_present x g) by (apply Pa; auto). apply Pb in K. destruct K as [K _]. apply has_col_iff in K. congruence.
  - apply has_col_iff in Hb. assert (K : column_present x g) by (apply Pb; auto). apply Pa in K. destruct K as [K _]. apply has_col_iff in K. congruence.
Qed.
Lemma rl_column g : py_eq f g = false -> py_eq f' g = false -> column a g = column b g.
Proof.
  intros Q Q'. destruct rl_rows as (ja & jb & _ & _ & _ & F). unfold column. induction F as [|r s l k (_ & R & _) F IH]; [reflexivity|]. cbn [flat_map]. rewrite (R g Q Q'), IH. reflexivity.
Qed.
Lemma rl_labels : labels (frows a) = labels (frows b).
Proof. destruct rl_rows as (ja & jb & _ & _ & _ & F). unfold labels. eapply Forall2_map_eq; [|exact F]. intros r s (R & _). exact R. Qed.
Lemma rl_len : length (frows a) = length (frows b).
Proof. destruct rl_rows as (ja & jb & _ & _ & _ & F). apply (Forall2_length _ _ _ F). Qed.
(** a feature of the one table is no class column of either *)
Lemma rl_feature g : has_col a g = true -> py_eq f g = false -> py_eq f' g = false.
Proof.
  intros H Q. destruct RL as [Ga Gb (x & A & B) _]. destruct (drop_col_values _ _ _ Ga A) as [Pa _]. destruct (drop_col_values _ _ _ Gb B) as [Pb _].
  apply has_col_iff in H. assert (K : column_present x g) by (apply Pa; auto). apply Pb in K. tauto.
Qed.
End RL.
Lemma rl_sym f f' p p' a b : relabel f f' p p' a b -> relabel f' f p' p b a.
Proof. intros [A B (x & C & D) E]. constructor; eauto. Qed.

Lemma lrel_drop f f' p p' a b ja jb la lb : col_pos (fcols a) f = Some ja -> col_pos (fcols b) f' = Some jb -> remove_nth ja (fcols a) = remove_nth jb (fcols b) ->
  Forall2 (lrel f f' p p' (fcols a) (fcols b) ja jb) la lb -> drop_col (with_rows a la) f = drop_col (with_rows b lb) f'.
Proof.
  intros A B C F. unfold drop_col. cbn [with_rows fcols frows]. rewrite A, B, C. do 2 f_equal. eapply Forall2_map_eq; [|exact F].
  intros r s (L & _ & R & _). rewrite L, R. reflexivity.
Qed.
Lemma rl_split f f' p p' a b : relabel f f' p p' a b -> exists pa na pb nb, pos_neg_split a f p = Ok (pa, na) /\ pos_neg_split b f' p' = Ok (pb, nb) /\
  labels (frows pa) = labels (frows pb) /\ labels (frows na) = labels (frows nb) /\ drop_col pa f = drop_col pb f' /\ drop_col na f = drop_col nb f'.
Proof.
  intros RL. destruct (rl_has_f _ _ _ _ _ _ RL) as [Ha Hb]. destruct (rl_rows _ _ _ _ _ _ RL) as (ja & jb & A & B & C & F). unfold pos_neg_split. rewrite Ha, Hb.
  do 4 eexists. split; [reflexivity|]. split; [reflexivity|]. cbn [frows with_rows].
  assert (FP : Forall2 (lrel f f' p p' (fcols a) (fcols b) ja jb) (pos_rows a f p) (pos_rows b f' p')) by (apply Forall2_filter; auto; intros ? ? (_ & _ & _ & H); exact H).
  assert (FN : Forall2 (lrel f f' p p' (fcols a) (fcols b) ja jb) (neg_rows a f p) (neg_rows b f' p')) by (apply Forall2_filter; auto; intros ? ? (_ & _ & _ & H); f_equal; exact H).
  split; [unfold labels; eapply Forall2_map_eq; [|exact FP]; intros ? ? (R & _); exact R|].
  split; [unfold labels; eapply Forall2_map_eq; [|exact FN]; intros ? ? (R & _); exact R|].
  split; eapply lrel_drop; eauto.
Qed.
Lemma rl_cn f f' p p' a b : relabel f f' p p' a b -> cn_make a f = cn_make b f'.
Proof. intros RL. pose proof (rl_labels _ _ _ _ _ _ RL) as L. destruct RL as [_ _ (x & A & B) _]. unfold cn_make. rewrite A, B, L. reflexivity. Qed.
Lemma rl_train alg e h cnopt f f' p p' a b xi : relabel f f' p p' a b -> train alg e h cnopt a f p xi = train alg e h cnopt b f' p' xi.
Proof.
  intros RL. destruct (rl_split _ _ _ _ _ _ RL) as (pa & na & pb & nb & A & B & LP & LN & DP & DN). pose proof (rl_cn _ _ _ _ _ _ RL) as CN.
  destruct alg; cbn [train]; unfold irep_train, ripper_train; rewrite CN, A, B; cbn [bind]; rewrite LP, LN, DP, DN; reflexivity.
Qed.
Lemma rl_cols f f' p p' a b : relabel f f' p p' a b -> cols_without a f = cols_without b f'.
Proof. intros [_ _ (x & A & B) _]. unfold cols_without. rewrite A, B. reflexivity. Qed.

(** ** recalibration of rules that do not mention the class *)
Section REC.
Variables (f f' p p' : pyval) (a b : frame) (ja jb : nat).
Let ok (c : cond) : Prop := py_eq f (cfeat c) = false /\ py_eq f' (cfeat c) = false.
Hypothesis HAS : forall g, py_eq f g = false -> py_eq f' g = false -> has_col a g = has_col b g.
Hypothesis HF : has_col a f = true /\ has_col b f' = true.
Let R := lrel f f' p p' (fcols a) (fcols b) ja jb.
Definition lfrel (c d : frame) : Prop := fcols c = fcols a /\ fcols d = fcols b /\ Forall2 R (frows c) (frows d).
Definition lorel (c d : res frame) : Prop := match c, d with Ok x, Ok y => lfrel x y | Err e, Err e' => e = e' | _, _ => False end.
Lemma lconds_rel cs : (forall x, In x cs -> ok x) -> forall c d, lfrel c d -> lorel (conds_cover cs c) (conds_cover cs d).
Proof.
  induction cs as [|x t IH]; intros O c d (C & D & F); cbn [conds_cover]; [split; auto|]. destruct (O x (or_introl eq_refl)) as [O1 O2].
  unfold cond_covers, select_eq. assert (HC : has_col c (cfeat x) = has_col d (cfeat x)) by (unfold has_col in *; rewrite C, D; apply HAS; auto). rewrite HC.
  destruct (has_col d (cfeat x)); cbn [bind]; [|reflexivity]. apply IH; [intros; apply O; right; auto|]. split; [auto|]. split; [auto|]. cbn [frows with_rows]. rewrite C, D.
  apply Forall2_filter; auto. intros r s (_ & H & _). unfold cell_eq. rewrite (H _ O1 O2). reflexivity.
Qed.
Lemma lfrel_pos c d : lfrel c d -> num_pos c f p = num_pos d f' p'.
Proof.
  intros (C & D & F). unfold num_pos, has_col, pos_rows. rewrite C, D. change (existsb (fun c0 => py_eq c0 f) (fcols a)) with (has_col a f). change (existsb (fun c0 => py_eq c0 f') (fcols b)) with (has_col b f').
  destruct HF as [-> ->]. f_equal. eapply Forall2_length. apply Forall2_filter; [|exact F]. intros r s (_ & _ & _ & H). exact H.
Qed.
Lemma lfrel_neg c d : lfrel c d -> num_neg c f p = num_neg d f' p'.
Proof.
  intros (C & D & F). unfold num_neg, has_col, neg_rows. rewrite C, D. change (existsb (fun c0 => py_eq c0 f) (fcols a)) with (has_col a f). change (existsb (fun c0 => py_eq c0 f') (fcols b)) with (has_col b f').
  destruct HF as [-> ->]. f_equal. eapply Forall2_length. apply Forall2_filter; [|exact F]. intros r s (_ & _ & _ & H). f_equal. exact H.
Qed.
Lemma lfrel_len c d : lfrel c d -> length (frows c) = length (frows d).
Proof. intros (_ & _ & F). apply (Forall2_length _ _ _ F). Qed.
Lemma lfrel_labels c d : lfrel c d -> labels (frows c) = labels (frows d).
Proof. intros (_ & _ & F). unfold labels. eapply Forall2_map_eq; [|exact F]. intros r s (H & _). exact H. Qed.
Hypothesis AB : lfrel a b.
Let okr (r : rule) : Prop := forall x, In x (conds r) -> ok x.
Lemma lstats_rel alpha r : okr r -> rule_class_stats alpha a f p r = rule_class_stats alpha b f' p' r.
Proof.
  intros O. unfold rule_class_stats, rule_covers. pose proof (lconds_rel (conds r) O a b AB) as H. destruct (conds_cover (conds r) a) as [c|], (conds_cover (conds r) b) as [d|]; cbn [lorel] in H; try contradiction; [|subst; reflexivity].
  cbn [bind]. rewrite (lfrel_pos _ _ H), (lfrel_len _ _ H). reflexivity.
Qed.
Lemma lcovers_rel rs : (forall r, In r rs -> okr r) -> lorel (rs_covers rs a) (rs_covers rs b).
Proof.
  intros O. unfold rs_covers. destruct (rs_isuniversal rs); [exact AB|]. destruct (rs_isnull rs); [split; [auto|]; split; [auto|constructor]|].
  assert (H : match mapM (fun r => rule_covers r a) rs, mapM (fun r => rule_covers r b) rs with Ok x, Ok y => Forall2 lfrel x y | Err e, Err e' => e = e' | _, _ => False end).
  { induction rs as [|r rs IH]; [constructor|]. cbn [mapM]. change (rule_covers r a) with (conds_cover (conds r) a). change (rule_covers r b) with (conds_cover (conds r) b).
    pose proof (lconds_rel (conds r) (O r (or_introl eq_refl)) a b AB) as K.
    destruct (conds_cover (conds r) a) as [c|], (conds_cover (conds r) b) as [d|]; cbn [lorel] in K; try contradiction; cbn [bind]; [|auto].
    specialize (IH (fun r0 I => O r0 (or_intror I))).
    destruct (mapM (fun r0 => rule_covers r0 a) rs), (mapM (fun r0 => rule_covers r0 b) rs); try contradiction; cbn [bind]; auto. }
  destruct (mapM (fun r => rule_covers r a) rs) as [x|], (mapM (fun r => rule_covers r b) rs) as [y|]; try contradiction; cbn [bind lorel]; [|auto].
  split; [auto|]. split; [auto|]. cbn [frows with_rows]. clear -H. induction H as [|c d x y (_ & _ & K) H IH]; [constructor|]. cbn [map concat]. apply Forall2_app; auto.
Qed.
Lemma luncov_rel ls : lfrel (with_rows a (drop_labels (frows a) ls)) (with_rows b (drop_labels (frows b) ls)).
Proof. split; [auto|]. split; [auto|]. cbn [frows with_rows]. unfold drop_labels. apply Forall2_filter; [|apply AB]. intros r s (L & _). rewrite L. reflexivity. Qed.
Lemma selected_ok l g : (forall r, In r l -> okr r) -> In g (selected_features l) -> py_eq f g = false /\ py_eq f' g = false.
Proof.
  intros O I. unfold selected_features in I. apply dedup_by_In in I. apply in_flat_map in I. destruct I as (r & Ir & I). apply in_map_iff in I. destruct I as (c & <- & Ic). apply (O r Ir c Ic).
Qed.
Lemma lcheck_rel l : (forall g, In g l -> py_eq f g = false /\ py_eq f' g = false) -> check_features a l = check_features b l.
Proof.
  intros O. unfold check_features. assert (E : forallb (has_col a) l = forallb (has_col b) l); [|rewrite E; reflexivity].
  induction l as [|x l IH]; cbn; [auto|]. rewrite IH by (intros; apply O; right; auto). rewrite HAS; auto; apply O; left; auto.
Qed.
Lemma lrecal_rel alpha x : (forall r, In r (rs_rules x) -> okr r) -> recalibrate alpha x a f p = recalibrate alpha x b f' p'.
Proof.
  intros O. unfold recalibrate. rewrite lcheck_rel by (intros g; apply selected_ok; auto). destruct (check_features b _); cbn [bind]; auto.
  rewrite (mapM_ext (rule_class_stats alpha a f p) (rule_class_stats alpha b f' p')) by (intros; apply lstats_rel; auto). destruct (mapM _ _); cbn [bind]; auto.
  pose proof (lcovers_rel (rs_rules x) O) as H. destruct (rs_covers (rs_rules x) a) as [c|], (rs_covers (rs_rules x) b) as [d|]; cbn [lorel] in H; try contradiction; [|subst; reflexivity].
  cbn [bind]. rewrite (lfrel_labels _ _ H). rewrite (lfrel_neg _ _ (luncov_rel (labels (frows d)))), (lfrel_len _ _ (luncov_rel (labels (frows d)))). reflexivity.
Qed.
End REC.
Lemma rl_recal f f' p p' a b alpha x : relabel f f' p p' a b -> (forall r c, In r (rs_rules x) -> In c (conds r) -> py_eq f (cfeat c) = false /\ py_eq f' (cfeat c) = false) ->
  recalibrate alpha x a f p = recalibrate alpha x b f' p'.
Proof.
  intros RL O. destruct (rl_rows _ _ _ _ _ _ RL) as (ja & jb & _ & _ & _ & F). apply (lrecal_rel f f' p p' a b ja jb).
  - intros g. apply (rl_has _ _ _ _ _ _ RL).
  - apply (rl_has_f _ _ _ _ _ _ RL).
  - split; [auto|]. split; auto.
  - intros r I c J. apply (O r c I J).
Qed.

(** ** binning *)
Lemma rl_set f f' p p' a b g vs : relabel f f' p p' a b -> py_eq f g = false -> py_eq f' g = false -> has_col a g = true -> length vs = length (frows a) ->
  relabel f f' p p' (set_col a g vs) (set_col b g vs).
Proof.
  intros RL N N' H L. assert (H' : has_col b g = true) by (rewrite <- (rl_has _ _ _ _ _ _ RL); auto). pose proof (rl_len _ _ _ _ _ _ RL) as LB.
  destruct RL as [[Wa Da] [Wb Db] (x & A & B) C]. destruct (set_col_spec a g vs Wa H L) as (A1 & _ & A3 & _ & A5). destruct (set_col_spec b g vs Wb H' ltac:(congruence)) as (B1 & _ & B3 & _ & B5).
  constructor.
  - split; auto. rewrite A1; auto.
  - split; auto. rewrite B1; auto.
  - exists (set_col x g vs). rewrite !drop_set by auto. rewrite A, B. auto.
  - rewrite py_eq_sym in N, N'. rewrite A5, B5; auto.
Qed.
Definition ltrel f f' p p' (c d : res frame) : Prop := match c, d with Ok x, Ok y => relabel f f' p p' x y | Err e, Err e' => e = e' | _, _ => False end.
Lemma rl_cols_transform f f' p p' bt done bins : (forall g b, In (g, b) bins -> py_eq f g = false /\ py_eq f' g = false) -> forall a b, relabel f f' p p' a b ->
  ltrel f f' p p' (transform_cols bt done bins a) (transform_cols bt done bins b).
Proof.
  induction bins as [|[g bs] t IH]; intros N a b RL; cbn [transform_cols]; [exact RL|]. destruct (N g bs (or_introl eq_refl)) as [N1 N2].
  rewrite (rl_has _ _ _ _ _ _ RL g N1 N2), (rl_column _ _ _ _ _ _ RL g N1 N2).
  destruct (has_col b g && _) eqn:HC; [|apply IH; auto; intros; eapply N; right; eauto]. apply andb_prop in HC. destruct HC as [HC _].
  destruct (transform_feat bt g bs (column b g)) as [vs|] eqn:T; cbn [bind]; [|reflexivity]. destruct (transform_feat_ok _ _ _ _ _ T) as [L _].
  rewrite column_length in L by (auto; apply (rl_b _ _ _ _ _ _ RL)). apply IH; [intros; eapply N; right; eauto|].
  apply rl_set; auto; [rewrite (rl_has _ _ _ _ _ _ RL); auto|rewrite (rl_len _ _ _ _ _ _ RL); auto].
Qed.
Lemma rl_transform f f' p p' bt a b : (forall bins g b, bt_bins bt = Some bins -> In (g, b) bins -> py_eq f g = false /\ py_eq f' g = false) -> relabel f f' p p' a b ->
  ltrel f f' p p' (transform bt a) (transform bt b).
Proof.
  intros N RL. unfold transform. destruct (bt_bins bt) as [bins|]; [|reflexivity]. specialize (N bins).
  assert (E : find_transformed bins a = find_transformed bins b).
  { unfold find_transformed. assert (FE : filter (fun q => has_col a (fst q) && is_text_col (column a (fst q))) bins = filter (fun q => has_col b (fst q) && is_text_col (column b (fst q))) bins).
    { apply filter_ext_in. intros [g l] I. destruct (N g l eq_refl I) as [N1 N2]. cbn [fst]. rewrite (rl_has _ _ _ _ _ _ RL g N1 N2), (rl_column _ _ _ _ _ _ RL g N1 N2). reflexivity. } rewrite FE.
    assert (G : forall l, (forall q, In q l -> In q bins) -> forallb (fun q : pyval * list str => forallb (fun v => match v with PStr s => str_in s (snd q) | _ => false end) (column a (fst q))) l =
      forallb (fun q : pyval * list str => forallb (fun v => match v with PStr s => str_in s (snd q) | _ => false end) (column b (fst q))) l).
    { induction l as [|[g k] l IH]; intros S; [reflexivity|]. cbn [forallb fst snd]. destruct (N g k eq_refl (S _ (or_introl eq_refl))) as [N1 N2]. rewrite IH by (intros; apply S; right; auto).
      rewrite (rl_column _ _ _ _ _ _ RL g N1 N2). reflexivity. }
    rewrite G by (intros q I; apply filter_In in I; tauto). reflexivity. }
  rewrite E. destruct (find_transformed bins b); cbn [bind]; [|reflexivity]. apply rl_cols_transform; [intros; eapply N; eauto|auto].
Qed.
Lemma rl_common f f' p p' a b ja jb g : relabel f f' p p' a b -> col_pos (fcols a) f = Some ja -> col_pos (fcols b) f' = Some jb -> remove_nth ja (fcols a) = remove_nth jb (fcols b) ->
  In g (remove_nth ja (fcols a)) -> py_eq f g = false /\ py_eq f' g = false.
Proof.
  intros RL A B C I. destruct RL as [Ga Gb (x & DA & DB) _]. destruct (drop_col_values _ _ _ Ga DA) as [Pa _]. destruct (drop_col_values _ _ _ Gb DB) as [Pb _].
  assert (FX : fcols x = remove_nth ja (fcols a)) by (unfold drop_col in DA; rewrite A in DA; injection DA as <-; reflexivity). rewrite <- FX in I.
  assert (K : py_eq g g = true -> column_present x g) by (intros Q; exists g; auto).
  split; apply Bool.not_true_iff_false; intros Q; assert (Q' := py_eq_refl_r _ _ Q); specialize (K Q'); [apply Pa in K|apply Pb in K]; destruct K as [_ K]; congruence.
Qed.
Lemma rl_feats f f' p p' a b nbins : relabel f f' p p' a b -> find_continuous_feats nbins a [f] = find_continuous_feats nbins b [f'].
Proof.
  intros RL. destruct (rl_rows _ _ _ _ _ _ RL) as (ja & jb & A & B & C & _). unfold find_continuous_feats. destruct nbins as [n|]; [|reflexivity]. destruct (n =? 0)%Z; [reflexivity|].
  destruct (col_pos_spec _ _ _ A) as (c & A1 & A2). destruct (col_pos_spec _ _ _ B) as (d & B1 & B2).
  rewrite <- (filter_remove _ (fcols a) ja c A1), <- (filter_remove _ (fcols b) jb d B1), <- C.
  - apply filter_ext_in. intros g I. destruct (rl_common _ _ _ _ _ _ _ _ _ RL A B C I) as [N1 N2]. rewrite (rl_column _ _ _ _ _ _ RL g N1 N2). cbn [existsb]. rewrite N1, N2. reflexivity.
  - cbn [existsb]. rewrite (py_eq_sym f' d), B2. cbn [orb negb]. apply Bool.andb_false_r.
  - cbn [existsb]. rewrite (py_eq_sym f c), A2. cbn [orb negb]. apply Bool.andb_false_r.
Qed.
Lemma rl_feats_not f f' p p' a b nbins g : relabel f f' p p' a b -> In g (find_continuous_feats nbins a [f]) -> py_eq f g = false /\ py_eq f' g = false.
Proof.
  intros RL I. assert (N := feats_not _ _ _ _ I). rewrite (rl_feats _ _ _ _ _ _ _ RL) in I. split; auto. eapply feats_not; eauto.
Qed.
Definition lfrel2 f f' p p' (c d : res (bin_transformer * frame)) : Prop :=
  match c, d with Ok (b, x), Ok (b', y) => b = b' /\ relabel f f' p p' x y | Err e, Err e' => e = e' | _, _ => False end.
Lemma rl_fit_transform f f' p p' cut nbins a b : relabel f f' p p' a b -> lfrel2 f f' p p' (fit_transform cut nbins a [f]) (fit_transform cut nbins b [f']).
Proof.
  intros RL. unfold fit_transform. assert (E : fit_bins cut nbins a [f] = fit_bins cut nbins b [f']).
  { unfold fit_bins. rewrite <- (rl_feats _ _ _ _ _ _ nbins RL). erewrite mapM_ext; [reflexivity|]. intros g I. cbv beta. destruct (rl_feats_not _ _ _ _ _ _ _ _ RL I) as [N1 N2].
    rewrite (rl_column _ _ _ _ _ _ RL g N1 N2). reflexivity. }
  rewrite <- E. destruct (fit_bins cut nbins a [f]) as [bt|] eqn:FB; cbn [bind]; [|reflexivity].
  assert (N : forall bins g bs, bt_bins bt = Some bins -> In (g, bs) bins -> py_eq f g = false /\ py_eq f' g = false).
  { intros bins g bs HB I. unfold fit_bins in FB. binv FB. injection FB as <-. cbn [bt_bins] in HB. injection HB as <-. apply filter_In in I. destruct I as [I _].
    destruct (mapM_In _ _ _ _ E0 I) as (h & Ih & Eh). cbv beta in Eh. binv Eh. binv Eh. injection Eh as <- _. eapply rl_feats_not; eauto. }
  pose proof (rl_transform f f' p p' bt a b N RL) as T. destruct (transform bt a), (transform bt b); cbn [ltrel] in T; try contradiction; cbn [bind lfrel2]; auto.
Qed.
