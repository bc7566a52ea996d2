(** * Prop_Order.v : C100 -- the order of the training rows *)
From Verif Require Import OrderSpec GainFacts BaseFacts CoverFacts DiscFacts CallForm FitRun FitFacts MetricsFacts TransFacts ClfFacts ClassFacts TrainView IrepTrain RenSim RenTrain RenFit Extra RowSim RowTrain Prop_Bins Prop_Fit Prop_FitModel Prop_Call Prop_Extra Prop_Cutoff Prop_Helpers Prop_Rename Demo.
Open Scope nat_scope.

Lemma in_set_hash H H' : (forall l, H l = H' l) -> forall seen r, in_set H seen r = in_set H' seen r.
Proof. intros E seen r. unfold in_set, rule_hash. induction seen as [|x seen IS]; cbn [existsb]; [reflexivity|]. rewrite IS. f_equal. rewrite !E. reflexivity. Qed.
Lemma dups_hash H H' : (forall l, H l = H' l) -> forall l seen, remove_dups_from H seen l = remove_dups_from H' seen l.
Proof.
  intros E. induction l as [|r l IH]; intros seen; cbn [remove_dups_from]; [reflexivity|].
  rewrite (in_set_hash H H' E). destruct (in_set H' seen r); [apply IH|]. f_equal. apply IH.
Qed.
Lemma seq_perm_lt s n i j : Permutation s (seq 0 n) -> nth_error s i = Some j -> j < n /\ i < n.
Proof.
  intros P N. split; [assert (In j (seq 0 n)) by (eapply Permutation_in; [exact P|eapply nth_error_In; eauto]); apply in_seq in H; lia|].
  apply Permutation_length in P. rewrite seq_length in P. rewrite <- P. apply nth_error_Some. congruence.
Qed.
Lemma pick_all {A} (d : A) l : map (fun j => nth j l d) (seq 0 (length l)) = l.
Proof. apply nth_error_ext. intros i. rewrite nth_error_map. destruct (nth_error l i) as [x|] eqn:E.
  - assert (L : i < length l) by (apply nth_error_Some; congruence). rewrite (nth_error_nth' (seq 0 (length l)) 0) by (rewrite seq_length; exact L). rewrite seq_nth by exact L. cbn [option_map plus]. rewrite (nth_error_nth _ _ d E). reflexivity.
  - apply nth_error_None in E. rewrite (proj2 (nth_error_None (seq 0 (length l)) i)) by (rewrite seq_length; exact E). reflexivity.
Qed.

(** a permuted column *)
Lemma perm_cells (cs cs' : list pyval) s n : Permutation s (seq 0 n) -> length cs = n -> length cs' = n -> (forall i j, nth_error s i = Some j -> nth_error cs' i = nth_error cs j) -> forall v, In v cs' <-> In v cs.
Proof.
  intros P L L' H v. assert (LS : length s = n) by (apply Permutation_length in P; rewrite seq_length in P; exact P). split; intros I; destruct (In_nth_error _ _ I) as (i & N).
  - destruct (nth_error s i) as [j|] eqn:J; [|apply nth_error_None in J; assert (i < length cs') by (apply nth_error_Some; congruence); lia]. rewrite (H _ _ J) in N. eapply nth_error_In; eauto.
  - assert (LI : i < length cs) by (apply nth_error_Some; congruence). assert (J : In i s) by (eapply Permutation_in; [apply Permutation_sym; exact P|]; apply in_seq; lia).
    destruct (In_nth_error _ _ J) as (k & K). rewrite <- (H _ _ K) in N. eapply nth_error_In; eauto.
Qed.
Lemma no_bins cut nb fr h cs : kept_as_is nb fr h -> nbins_ok nb -> column_values fr h cs -> bins_of cut nb cs = None.
Proof.
  intros K N C. unfold bins_of. destruct nb as [n|]; [|reflexivity]. cbn in N. destruct (Z.eqb_spec n 0) as [|NZ]; [reflexivity|].
  destruct (is_numeric_col cs) eqn:NU; [|reflexivity]. destruct (Z.ltb_spec n (Z.of_nat (length (unique cs)))) as [L|L]; [|reflexivity]. exfalso. apply (K n cs eq_refl ltac:(lia) C). split; [apply numeric_iff; auto|apply more_than_unique; auto].
Qed.
Lemma no_bins_nil cut nb : nbins_ok nb -> bins_of cut nb [] = None.
Proof. intros N. unfold bins_of. destruct nb as [n|]; [|reflexivity]. cbn in N. destruct (Z.eqb_spec n 0); [reflexivity|]. cbn [is_numeric_col forallb andb unique dedup_by length]. destruct (Z.ltb_spec n (Z.of_nat 0)); [lia|reflexivity]. Qed.
Lemma dedup_map f : (forall u v, uniq_eq u v = true -> f u = f v) -> forall l seen S, (forall x, In x seen -> existsb (fun b => uniq_eq b (f x)) S = true) ->
  dedup_by uniq_eq S (map f l) = dedup_by uniq_eq S (map f (dedup_by uniq_eq seen l)).
Proof.
  intros R. induction l as [|a t IH]; intros seen S H; cbn [map dedup_by]; [reflexivity|]. destruct (existsb (fun b => uniq_eq b a) seen) eqn:E.
  - apply existsb_exists in E. destruct E as (b & I & E). rewrite <- (R _ _ E), (H b I). apply IH; auto.
  - cbn [map dedup_by]. destruct (existsb (fun b => uniq_eq b (f a)) S) eqn:E2.
    + apply IH. intros x I. apply in_app_or in I. destruct I as [I|[<-|[] ] ]; auto.
    + f_equal. apply IH. intros x I. rewrite existsb_app. apply in_app_or in I. destruct I as [I|[<-|[] ] ]; [rewrite (H x I); reflexivity|]. cbn [existsb]. rewrite uniq_eq_refl, Bool.orb_true_r. reflexivity.
Qed.
Lemma unique_map f l l' : (forall u v, uniq_eq u v = true -> f u = f v) -> unique l = unique l' -> unique (map f l) = unique (map f l').
Proof. intros R E. unfold unique in *. rewrite (dedup_map f R l [] []), (dedup_map f R l' [] []) by (intros x []). rewrite E. reflexivity. Qed.
Lemma in_interval_eq x y i : (x == y)%Q -> in_interval x i = in_interval y i.
Proof.
  intros E. unfold in_interval. f_equal; [destruct (i_left i)|destruct (i_right i)]; try reflexivity; unfold fle; cbn [flt feq]; apply Bool.eq_true_iff_eq; rewrite ?Bool.orb_true_iff, ?Qlt_b_iff, ?Qeq_bool_iff.
  - split; intros K; Lqa.lra.
  - split; (intros [K|K]; [left|right]; Lqa.lra).
Qed.
Lemma cut_value_eq ivs u v : uniq_eq u v = true -> cut_value ivs u = cut_value ivs v.
Proof.
  intros E. unfold uniq_eq in E. apply Bool.orb_true_iff in E. destruct E as [E|E]; [|destruct u, v; try discriminate; reflexivity]. unfold cut_value.
  destruct (num_of u) as [x|] eqn:X, (num_of v) as [z|] eqn:Z; try reflexivity.
  - assert (Q : (x == z)%Q) by (destruct u, v; try discriminate; cbn [py_eq] in E; rewrite X, Z in E; apply Qeq_bool_iff; exact E).
    assert (FE : find (fun p => in_interval x (fst p)) ivs = find (fun p => in_interval z (fst p)) ivs) by (clear -Q; induction ivs as [|p l IH]; [reflexivity|]; cbn [find]; rewrite (in_interval_eq x z _ Q), IH; reflexivity). rewrite FE. reflexivity.
  - destruct u, v; discriminate.
  - destruct u, v; discriminate.
Qed.
Lemma existsb_In {A} (p : A -> bool) l l' : (forall v, In v l' <-> In v l) -> existsb p l = existsb p l'.
Proof. intros H. apply Bool.eq_true_iff_eq. rewrite !existsb_exists. split; intros (x & I & P); exists x; (split; [apply H; auto|auto]). Qed.
Lemma pandas_bins_In edges l l' : (forall v, In v l' <-> In v l) -> pandas_bins edges l = pandas_bins edges l'.
Proof. intros H. unfold pandas_bins. f_equal. apply filter_ext. intros p. apply existsb_In; auto. Qed.
Lemma numeric_In (l l' : list pyval) : (forall v, In v l' <-> In v l) -> is_numeric_col l = is_numeric_col l'.
Proof. intros H. unfold is_numeric_col. apply Bool.eq_true_iff_eq. rewrite !forallb_forall. split; intros K v I; apply K, H, I. Qed.
Lemma start_ok init xi : frommodel init = Ok xi -> exists x0, irep_start init = Ok x0.
Proof. unfold frommodel, irep_start. destruct (falsy init); [eauto|]. destruct init as [| | |o| |]; try discriminate; eauto. destruct o; [eauto|discriminate]. Qed.

Section TWO.
Variables (X X' : data) (y y' : option ydata) (cf cf' : option pyval) (names names' : option (list pyval)) (f : pyval) (vs vs' : list pyval) (ix ix' : list nat) (fr fr' a b : frame) (s : list nat).
Hypotheses (T : training_input X y cf names f vs ix) (T' : training_input X' y' cf' names' f vs' ix') (TB : table_of X names fr) (TB' : table_of X' names' fr').
Hypotheses (TDa : training_df X y f names = Ok a) (TDb : training_df X' y' f names' = Ok b) (Ga : good_frame a) (Gb : good_frame b).
Hypotheses (Ha : has_col a f = true) (Hb : has_col b f = true) (Ca : column a f = vs) (Cb : column b f = vs').
Hypothesis (RO : reordered f fr vs fr' vs' s).
Lemma two_has h : has_col a h = has_col b h.
Proof.
  destruct (py_eq f h) eqn:FH.
  - assert (HH : forall q, has_col q f = true -> has_col q h = true) by (intros q HQ; apply existsb_exists in HQ; destruct HQ as (c & I & Q); apply existsb_exists; exists c; split; [auto|]; eapply py_eq_trans; eauto). rewrite !HH by auto. reflexivity.
  - rewrite (raw_has _ _ _ _ _ _ _ _ _ T TB TDa h FH), (raw_has _ _ _ _ _ _ _ _ _ T' TB' TDb h FH), (ro_cols _ _ _ _ _ _ RO). reflexivity.
Qed.
Lemma two_len : length (frows b) = length (frows a).
Proof. rewrite (raw_len _ _ _ _ _ _ _ _ _ T TB TDa), (raw_len _ _ _ _ _ _ _ _ _ T' TB' TDb). apply (ro_rows _ _ _ _ _ _ RO). Qed.
Lemma two_nth h i j : has_col a h = true -> nth_error s i = Some j -> nth_error (column b h) i = nth_error (column a h) j.
Proof.
  intros HA N. destruct (py_eq f h) eqn:FH.
  - rewrite <- (column_eq a h f FH), <- (column_eq b h f FH), Ca, Cb. apply (ro_class _ _ _ _ _ _ RO _ _ N).
  - assert (HX := HA). rewrite (raw_has _ _ _ _ _ _ _ _ _ T TB TDa h FH) in HX. apply existsb_exists in HX. destruct HX as (c & I & Q).
    rewrite <- (column_eq a h c Q), <- (column_eq b h c Q).
    assert (Fc : py_eq f c = false) by (unfold feature_columns in I; apply filter_In in I; rewrite py_eq_sym; apply Bool.negb_true_iff; tauto). assert (RF : py_eq c c = true) by (eapply py_eq_refl_l; eauto).
    assert (Hac : has_col a c = true) by (rewrite (raw_has _ _ _ _ _ _ _ _ _ T TB TDa c Fc); apply existsb_exists; eauto). assert (Hbc : has_col b c = true) by (rewrite <- two_has; exact Hac).
    destruct (seq_perm_lt _ _ _ _ (ro_perm _ _ _ _ _ _ RO) N) as [Lj Li].
    destruct (nth_error (frows fr) j) as [r|] eqn:R; [|apply nth_error_None in R; lia]. destruct (nth_error (frows fr') i) as [r'|] eqn:R'; [|apply nth_error_None in R'; rewrite (ro_rows _ _ _ _ _ _ RO) in R'; lia].
    destruct (raw_some _ _ _ _ _ _ _ _ _ T TB TDa Ga c j r Fc Hac R) as (v & V & A). rewrite V. apply (raw_nth _ _ _ _ _ _ _ _ _ T' TB' TDb Gb c i v Fc Hbc). exists r'. split; [auto|]. apply (ro_cells _ _ _ _ _ _ RO i j r r' c v); auto.
Qed.
Hypothesis (SF : same_first f fr fr').
Lemma two_cols : feature_columns f a = feature_columns f fr /\ feature_columns f b = feature_columns f fr.
Proof.
  assert (K : forall q, good_frame q -> has_col q f = true -> forall X y cf names vs ix fr0, training_input X y cf names f vs ix -> table_of X names fr0 -> training_df X y f names = Ok q -> feature_columns f q = feature_columns f fr0).
  { intros q G H X0 y0 cf0 names0 vs0 ix0 fr0 T0 TB0 TD0. assert (A := raw_drop _ _ _ _ _ _ _ _ _ T0 TB0 TD0). rewrite (drop_features f q G H) in A. injection A as A _. exact A. }
  split; [apply (K a Ga Ha _ _ _ _ _ _ _ T TB TDa)|]. rewrite <- (ro_cols _ _ _ _ _ _ RO). apply (K b Gb Hb _ _ _ _ _ _ _ T' TB' TDb).
Qed.
Lemma two_feature c : In c (feature_columns f fr) -> py_eq f c = false.
Proof. intros I. unfold feature_columns in I. apply filter_In in I. rewrite py_eq_sym. apply Bool.negb_true_iff. tauto. Qed.
Lemma two_In c : has_col a c = true -> forall v, In v (column b c) <-> In v (column a c).
Proof.
  intros HA. apply (perm_cells (column a c) (column b c) s (length (frows a))).
  - rewrite (raw_len _ _ _ _ _ _ _ _ _ T TB TDa). apply (ro_perm _ _ _ _ _ _ RO).
  - apply column_length; [apply Ga|exact HA].
  - rewrite <- two_len. apply column_length; [apply Gb|]. rewrite <- two_has. exact HA.
  - intros i j. apply two_nth; auto.
Qed.
Lemma two_unique c : In c (feature_columns f fr) -> unique (column b c) = unique (column a c).
Proof.
  intros I. assert (FC := two_feature c I). destruct (has_col a c) eqn:HA.
  - apply (SF c); auto; [apply (raw_values _ _ _ _ _ _ _ _ _ T TB TDa Ga c FC HA)|]. apply (raw_values _ _ _ _ _ _ _ _ _ T' TB' TDb Gb c FC). rewrite <- two_has. exact HA.
  - rewrite !column_none; [reflexivity|exact HA|]. rewrite <- two_has. exact HA.
Qed.
Variables (w w' : world) (nb : option Z).
Hypotheses (NO : nbins_ok nb) (SB : forall g, In g (feature_columns f fr) -> same_bins nb w w' fr fr' g).
(** the columns that are cut, and where *)
Definition cuts_here (cut : Z -> list pyval -> list edge) (q : frame) (c : pyval) : bool := match nb with Some n => if (n =? 0)%Z then false else is_numeric_col (column q c) && (n <? Z.of_nat (length (unique (column q c))))%Z | None => false end.
Lemma two_cuts c : In c (feature_columns f fr) -> cuts_here (w_cut w) a c = cuts_here (w_cut w') b c /\
  (cuts_here (w_cut w) a c = true -> forall n, nb = Some n -> pandas_bins (w_cut w n (column a c)) (column a c) = pandas_bins (w_cut w' n (column b c)) (column b c)).
Proof.
  intros I. unfold cuts_here. destruct nb as [n|] eqn:EN; [|split; [reflexivity|discriminate] ]. rewrite <- (two_unique c I). assert (FC := two_feature c I). destruct (has_col a c) eqn:HA.
  - rewrite (numeric_In (column a c) (column b c) (two_In c HA)). split; [reflexivity|]. destruct (Z.eqb_spec n 0); [discriminate|]. intros K m EM. injection EM as <-. rewrite (pandas_bins_In _ (column a c) (column b c) (two_In c HA)). f_equal.
    assert (HB : has_col b c = true) by (rewrite <- two_has; exact HA). assert (CA := raw_values _ _ _ _ _ _ _ _ _ T TB TDa Ga c FC HA). assert (CB := raw_values _ _ _ _ _ _ _ _ _ T' TB' TDb Gb c FC HB).
    destruct (SB c I) as [KP|CU]; [|apply CU; auto]. exfalso. apply Bool.andb_true_iff in K. destruct K as [K1 K2]. cbn in NO. apply (KP n (column a c) eq_refl ltac:(lia) CA). split.
    + apply numeric_iff. rewrite (numeric_In (column a c) (column b c) (two_In c HA)). exact K1.
    + apply more_than_unique. rewrite <- (two_unique c I). apply Z.ltb_lt. exact K2.
  - assert (HB : has_col b c = false) by (rewrite <- two_has; exact HA). rewrite !column_none by auto. split; [reflexivity|]. destruct (Z.eqb_spec n 0); [discriminate|]. cbn [is_numeric_col forallb andb unique dedup_by length]. cbn in NO. destruct (Z.ltb_spec n (Z.of_nat 0)); [lia|discriminate].
Qed.
Lemma bins_cuts cut q c : bins_of cut nb (column q c) = match nb with Some n => if cuts_here cut q c then match fit_labels (pandas_bins (cut n (column q c)) (column q c)) with Ok b => if 2 <=? length b then Some b else None | Err _ => None end else None | None => None end.
Proof. unfold bins_of, cuts_here. destruct nb as [n|]; [|reflexivity]. destruct (n =? 0)%Z; [reflexivity|]. destruct (_ && _); reflexivity. Qed.
Lemma two_bins_of h : has_col a h = true -> py_eq f h = false -> bins_of (w_cut w) nb (column a h) = bins_of (w_cut w') nb (column b h).
Proof.
  intros HA FH. assert (HX := HA). rewrite (raw_has _ _ _ _ _ _ _ _ _ T TB TDa h FH) in HX. apply existsb_exists in HX. destruct HX as (c & I & Q). rewrite <- (column_eq a h c Q), <- (column_eq b h c Q).
  rewrite !bins_cuts. destruct (two_cuts c I) as [C1 C2]. rewrite <- C1. destruct nb as [n|] eqn:EN; [|reflexivity]. destruct (cuts_here (w_cut w) a c); [|reflexivity]. rewrite (C2 eq_refl n eq_refl). reflexivity.
Qed.
Lemma two_binned h i j : has_col a h = true -> py_eq f h = false -> nth_error s i = Some j ->
  nth_error (binned_col (w_cut w') nb (column b h)) i = nth_error (binned_col (w_cut w) nb (column a h)) j.
Proof.
  intros HA FH N. unfold binned_col. rewrite <- (two_bins_of h HA FH). assert (E := two_nth h i j HA N). destruct (bins_of (w_cut w) nb (column a h)) as [bs|]; [|exact E].
  unfold transform_pandas. destruct (mapM str_to_interval bs) as [ivs|]; cbn [bind]; [|destruct i, j; reflexivity]. destruct (any_overlap ivs); [destruct i, j; reflexivity|]. rewrite !nth_error_map, E. reflexivity.
Qed.
Lemma two_binned_unique c : In c (feature_columns f fr) -> unique (binned_col (w_cut w') nb (column b c)) = unique (binned_col (w_cut w) nb (column a c)).
Proof.
  intros I. assert (FC := two_feature c I). destruct (has_col a c) eqn:HA.
  - unfold binned_col. rewrite <- (two_bins_of c HA FC). assert (E := two_unique c I). destruct (bins_of (w_cut w) nb (column a c)) as [bs|]; [|exact E].
    unfold transform_pandas. destruct (mapM str_to_interval bs) as [ivs|]; cbn [bind]; [|reflexivity]. destruct (any_overlap ivs); [reflexivity|]. apply unique_map; [intros u v; apply cut_value_eq|exact E].
  - assert (HB : has_col b c = false) by (rewrite <- two_has; exact HA). rewrite !column_none by auto. unfold binned_col. rewrite !no_bins_nil by auto. reflexivity.
Qed.
Lemma filter_two (q : frame) (P : pyval -> bool) : filter (fun c => P c && negb (existsb (fun g => py_eq g c) [f])) (fcols q) = filter P (feature_columns f q).
Proof.
  unfold feature_columns. induction (fcols q) as [|c l IH]; [reflexivity|]. cbn [filter]. rewrite IH. assert (E : existsb (fun g => py_eq g c) [f] = py_eq c f) by (cbn [existsb]; rewrite Bool.orb_false_r; apply py_eq_sym). rewrite E.
  destruct (py_eq c f); cbn [negb filter]; [rewrite Bool.andb_false_r; reflexivity|]. rewrite Bool.andb_true_r. reflexivity.
Qed.
Lemma feats_two cut q : find_continuous_feats nb q [f] = filter (cuts_here cut q) (feature_columns f q).
Proof.
  unfold find_continuous_feats, cuts_here. destruct nb as [n|]; [|induction (feature_columns f q); auto]. destruct (n =? 0)%Z; [induction (feature_columns f q); auto|].
  apply (filter_two q (fun c => is_numeric_col (column q c) && (n <? Z.of_nat (length (unique (column q c))))%Z)).
Qed.
Lemma two_fit_bins : fit_bins (w_cut w) nb a [f] = fit_bins (w_cut w') nb b [f].
Proof.
  unfold fit_bins. rewrite (feats_two (w_cut w) a), (feats_two (w_cut w') b). destruct two_cols as [-> ->].
  assert (FE : filter (cuts_here (w_cut w) a) (feature_columns f fr) = filter (cuts_here (w_cut w') b) (feature_columns f fr)) by (apply filter_ext_in; intros c I; apply two_cuts; exact I).
  rewrite <- FE. erewrite mapM_ext; [reflexivity|]. intros c I. apply filter_In in I. destruct I as [I J]. destruct (two_cuts c I) as [_ C2]. specialize (C2 J).
  destruct nb as [n|] eqn:EN; [rewrite (C2 n eq_refl); reflexivity|]. unfold cuts_here in J. rewrite EN in J. discriminate.
Qed.
End TWO.

(** what the split has to do with the rows *)
Definition follows (e e' : env) (h : hyper) (s ix ix' : list nat) : Prop :=
  forall R : nat -> nat -> Prop, (forall i i', R i i' -> exists k j, nth_error s k = Some j /\ nth_error ix j = Some i /\ nth_error ix' k = Some i') ->
  forall t l l', Rp R l l' ->
    Rp R (fst (random_split e t (grow_size h) l)) (fst (random_split e' t (grow_size h) l')) /\ Rp R (snd (random_split e t (grow_size h) l)) (snd (random_split e' t (grow_size h) l')).
Lemma order_core w w' cl X y cf names X' y' cf' names' f vs vs' ix ix' fr fr' s p init kw c1 :
  world_ok w -> world_ok w' -> (forall l, e_hash (w_env w) l = e_hash (w_env w') l) ->
  training_input X y cf names f vs ix -> training_input X' y' cf' names' f vs' ix' -> NoDup ix -> NoDup ix' ->
  table_of X names fr -> table_of X' names' fr' -> reordered f fr vs fr' vs' s -> same_first f fr fr' ->
  let h := hyper_of cl kw in
  (forall g, In g (feature_columns f fr) -> same_bins (h_nbins h) w w' fr fr' g) ->
  (h_nbins h = None \/ exists n, h_nbins h = Some n /\ (0 <= n)%Z) ->
  follows (w_env w) (w_env w') h s ix ix' ->
  fit w cl X y cf (Some p) names init true kw = (c1, Ok tt) ->
  exists c2 x1 x2, fit w' cl X' y' cf' (Some p) names' init true kw = (c2, Ok tt) /\
    c_rs c1 = Some x1 /\ c_rs c2 = Some x2 /\ rs_rules x1 = rs_rules x2 /\ rs_uncov x1 = rs_uncov x2 /\
    c_sel c1 = c_sel c2 /\ c_cf c1 = c_cf c2 /\ c_pc c1 = c_pc c2 /\ c_bt c1 = c_bt c2.
Proof.
  intros WO WO' EH T T' ND ND' TB TB' RO SF h KP NB SP H.
  assert (NO := nbins_fine_ok _ NB). assert (CO := proj2 WO). assert (CO' := proj2 WO').
  destruct (fit_fitted _ _ _ _ _ _ _ _ _ _ _ H) as (df & f1 & p1 & bt & xi & x1 & x2 & FT).
  destruct FT as [FP FI FTR FF FR FC FPC FBT FS FAL FH FCl FFe]. destruct (start_ok _ _ FI) as (x0 & S0).
  destruct (input_pre _ _ _ _ _ _ _ T) as (a & Ga & Ha & Ca & La & NEa & TDa & Pa). destruct (input_pre _ _ _ _ _ _ _ T') as (b & Gb & Hb & Cb & Lb & NEb & TDb & Pb).
  rewrite Pa in FP. cbn [get_pos_class bind] in FP. binv FP. destruct v as [bt0 df0]. injection FP as -> <- <- ->. rename E into EA. fold h in FTR, FF.
  destruct (fit_transform_ok (w_cut w') (fit_nbins cl kw) b f CO' NO Gb Hb) as (bt' & df' & EB & Gd' & F' & L' & CL' & _).
  destruct (binned_columns _ _ _ _ _ _ CO NO Ga EA) as (FA & LA & GA & KA & BA). destruct (binned_columns _ _ _ _ _ _ CO' NO Gb EB) as (FB & LB & GB & KB & BB).
  change (fit_nbins cl kw) with (h_nbins h) in *.
  assert (HAS := two_has _ _ _ _ _ _ _ _ _ _ _ _ _ _ _ _ _ _ T T' TB TB' TDa TDb Ha Hb RO).
  assert (LEN := two_len _ _ _ _ _ _ _ _ _ _ _ _ _ _ _ _ _ _ T T' TB TB' TDa TDb RO).
  assert (NTH := two_nth _ _ _ _ _ _ _ _ _ _ _ _ _ _ _ _ _ _ T T' TB TB' TDa TDb Ga Gb Ha Hb Ca Cb RO).
  assert (HDA : forall k, has_col df k = has_col a k) by (intros k; unfold has_col; rewrite FA; reflexivity).
  assert (BNTH := two_binned _ _ _ _ _ _ _ _ _ _ _ _ _ _ _ _ _ _ T T' TB TB' TDa TDb Ga Gb Ha Hb Ca Cb RO SF w w' (h_nbins h) NO KP).
  assert (BUNI := two_binned_unique _ _ _ _ _ _ _ _ _ _ _ _ _ _ _ _ _ _ T T' TB TB' TDa TDb Ga Gb Ha Hb Ca Cb RO SF w w' (h_nbins h) NO KP).
  assert (BFIT := two_fit_bins _ _ _ _ _ _ _ _ _ _ _ _ _ _ _ _ _ _ T T' TB TB' TDa TDb Ga Gb Ha Hb Ca Cb RO SF w w' (h_nbins h) NO KP).
  assert (LD : length (frows df) = length (frows a)) by (apply (f_equal (@length nat)) in LA; unfold labels in LA; rewrite !map_length in LA; exact LA).
  assert (LD' : length (frows df') = length (frows b)) by (apply (f_equal (@length nat)) in LB; unfold labels in LB; rewrite !map_length in LB; exact LB).
  assert (LF : length (frows fr) = length (frows df)) by (rewrite LD; symmetry; apply (raw_len _ _ _ _ _ _ _ _ _ T TB TDa)).
  assert (RP := ro_perm _ _ _ _ _ _ RO). rewrite LF in RP. assert (LS : length s = length (frows df)) by (rewrite (Permutation_length RP), seq_length; reflexivity).
  set (d0 := mkrow 0 []). set (q := map (fun j => nth j (frows df) d0) s).
  assert (PQ : Permutation (frows df) q) by (rewrite <- (pick_all d0 (frows df)) at 1; apply Permutation_map, Permutation_sym; exact RP).
  assert (QN : forall k r, nth_error q k = Some r -> exists j, nth_error s k = Some j /\ nth_error (frows df) j = Some r).
  { intros k r N. unfold q in N. rewrite nth_error_map in N. destruct (nth_error s k) as [j|] eqn:J; [|discriminate]. injection N as <-. exists j. split; [auto|]. apply nth_error_nth'. apply (seq_perm_lt _ _ _ _ RP J). }
  assert (LQ : length q = length (frows df')) by (unfold q; rewrite map_length; congruence).
  assert (HD : forall k, has_col df k = has_col df' k) by (intros k; unfold has_col in *; rewrite FA, FB; apply HAS).
  assert (CELL : forall k r r', nth_error q k = Some r -> nth_error (frows df') k = Some r' -> forall g, cell (fcols df) g r = cell (fcols df') g r').
  { intros k r r' R R' g. destruct (QN k r R) as (j & J & R0). rewrite (cell_nth df g j r GA R0), (cell_nth df' g k r' GB R'), HD. destruct (has_col df' g) eqn:HG; [|reflexivity]. assert (K : has_col a g = true) by (rewrite <- HDA, HD; exact HG). symmetry. destruct (py_eq f g) eqn:FG; [rewrite KA, KB by auto; apply NTH; auto|rewrite BA, BB by auto; apply BNTH; auto]. }
  assert (NA : NoDup (labels (frows df))) by (rewrite LA, La; exact ND). assert (NBb : NoDup (labels (frows df'))) by (rewrite LB, Lb; exact ND').
  assert (SPL := SP (rl df' q)). assert (SPH : forall i i', rl df' q i i' -> exists k j, nth_error s k = Some j /\ nth_error ix j = Some i /\ nth_error ix' k = Some i').
  { intros i i' (k & K1 & K2). rewrite LB, Lb in K2. unfold labels in K1. rewrite nth_error_map in K1. destruct (nth_error q k) as [r|] eqn:R; [|discriminate]. injection K1 as <-. destruct (QN k r R) as (j & J & R0). exists k, j. split; [auto|]. split; [|auto].
    rewrite <- La, <- LA. unfold labels. rewrite nth_error_map, R0. reflexivity. }
  specialize (SPL SPH).
  assert (HF : has_col df f = true) by (unfold has_col in *; rewrite FA; exact Ha). assert (HF' : has_col df' f = true) by (rewrite <- HD; exact HF).
  assert (DS : forall q d z, drop_col q f = Ok z -> fcols d = fcols q -> exists z', drop_col d f = Ok z') by (intros q0 d z D1 Fc; unfold drop_col in *; rewrite Fc; destruct (col_pos (fcols q0) f); [eauto|discriminate D1]).
  destruct (DS _ df _ (raw_drop _ _ _ _ _ _ _ _ _ T TB TDa) FA) as (xa & DA). destruct (DS _ df' _ (raw_drop _ _ _ _ _ _ _ _ _ T' TB' TDb) FB) as (xb & DB).
  assert (DX : forall q d z z0, drop_col q f = Ok z0 -> drop_col d f = Ok z -> fcols d = fcols q -> fcols z = fcols z0).
  { intros q0 d z z0 D1 D2 Fc. unfold drop_col in D1, D2. rewrite Fc in D2. destruct (col_pos (fcols q0) f); [|discriminate]. injection D1 as <-. injection D2 as <-. reflexivity. }
  assert (FX : fcols xa = feature_columns f fr) by apply (DX _ _ _ _ (raw_drop _ _ _ _ _ _ _ _ _ T TB TDa) DA FA).
  assert (FX' : fcols xb = feature_columns f fr') by apply (DX _ _ _ _ (raw_drop _ _ _ _ _ _ _ _ _ T' TB' TDb) DB FB).
  assert (CE : cn_possible_conds xa = cn_possible_conds xb).
  { unfold cn_possible_conds. rewrite FX, FX', (ro_cols _ _ _ _ _ _ RO). rewrite !flat_map_concat_map. f_equal. apply map_ext_in. intros g I. f_equal.
    assert (FG : py_eq f g = false) by (unfold feature_columns in I; apply filter_In in I; rewrite py_eq_sym; apply Bool.negb_true_iff; tauto).
    rewrite (column_drop df f xa g GA DA FG), (column_drop df' f xb g GB DB FG), BA, BB by auto. symmetry. apply BUNI. exact I. }
  pose proof (train_two df df' q GA GB PQ NA NBb LQ CELL f p (w_env w) (w_env w') h SPL xa xb DA DB CE (c_alg cl) xi) as TT. rewrite FTR in TT.
  destruct (train (c_alg cl) (w_env w') h true df' f p xi) as [y1|] eqn:FTR'; cbn [rres] in TT; [|contradiction]. destruct TT as (E1 & E2).
  assert (PB : fit_pre w' cl X' y' cf' (Some p) names' kw = Ok (df', f, p, bt')) by (rewrite Pb; cbn [get_pos_class bind]; change (fit_nbins cl kw) with (h_nbins h); rewrite EB; reflexivity).
  assert (FIN : exists y2, finish w' (c_alg cl) h df' f p y1 = Ok y2 /\ rs_rules x2 = rs_rules y2 /\ rs_uncov x2 = rs_uncov y2).
  { assert (DT : forall x z, rs_rules x = rs_rules z -> rs_rules (dedupe_trim (w_env w) h x) = rs_rules (dedupe_trim (w_env w') h z)).
    { intros x z EQ. unfold dedupe_trim, set_rules, remove_duplicates. cbn [rs_rules]. rewrite EQ, (dups_hash _ _ EH). reflexivity. }
    destruct (c_alg cl); cbn [finish] in *.
    - binv FF. rename v into xr. injection FF as <-. pose proof (recal_eq df df' q PQ NA NBb HD LQ CELL f p (h_alpha h) x1 y1 E1) as RC. rewrite E in RC. destruct (recalibrate (h_alpha h) y1 df' f p) as [yr|]; cbn [rres] in RC; [|contradiction]. destruct RC as [RC1 RC2].
      cbn [bind]. eexists. split; [reflexivity|]. split; [apply DT; exact RC1|unfold dedupe_trim, set_rules; cbn [rs_uncov]; exact RC2].
    - pose proof (recal_eq df df' q PQ NA NBb HD LQ CELL f p (h_alpha h) _ _ (DT _ _ E1)) as RC. rewrite FF in RC. destruct (recalibrate (h_alpha h) (dedupe_trim (w_env w') h y1) df' f p) as [yr|]; cbn [rres] in RC; [|contradiction]. exists yr. auto. }
  destruct FIN as (y2 & FY & Y1 & Y2).
  destruct (cols_without_ok df' f HF') as (feats & CW).
  assert (NE' : frows df' <> []). { intros Z. rewrite Z in LD'. destruct (frows b); [congruence|discriminate]. }
  destruct (fit_run w' cl X' y' cf' (Some p) names' init true kw df' f p bt' x0 xi y1 y2 feats S0 PB FI) as (c2 & H2 & R1 & R2 & R3 & R4 & R5 & _); auto.
  exists c2, x2, y2. do 5 (split; [assumption|]). split; [rewrite FS, R5, E1; reflexivity|]. split; [congruence|]. split; [congruence|].
  rewrite FBT, R4. unfold fit_transform in EA, EB. rewrite <- BFIT in EB. destruct (fit_bins (w_cut w) (h_nbins h) a [f]) as [t1|]; [|discriminate EA]. cbn [bind] in EA, EB. binv EA. injection EA as <- _. binv EB. injection EB as <- _. reflexivity.
Qed.

(** C100. IREP and RIPPER (with cn_optimize, the default) trained without pruning on the same examples in another order -- whatever the random state, the row labels and the form of the call:
    if in every feature the values make their first appearance in the same order, and no feature is discretised, then if the first call succeeds so does the second, and the two
    models have the same rules with the same class counts and probabilities, the same statistics of the uncovered examples, the same selected features, and the same class, positive class and bins. *)
Theorem C100_row_order : forall w w' cl X y cf names X' y' cf' names' f vs vs' ix ix' fr fr' s p init kw c1,
  world_ok w -> world_ok w' -> (forall l, e_hash (w_env w) l = e_hash (w_env w') l) ->
  training_input X y cf names f vs ix -> training_input X' y' cf' names' f vs' ix' -> NoDup ix -> NoDup ix' ->
  table_of X names fr -> table_of X' names' fr' -> reordered f fr vs fr' vs' s -> same_first f fr fr' ->
  let h := hyper_of cl kw in
  (forall g, In g (feature_columns f fr) -> same_bins (h_nbins h) w w' fr fr' g) ->
  (h_nbins h = None \/ exists n, h_nbins h = Some n /\ (0 <= n)%Z) -> (h_prune h == 0)%Q ->
  fit w cl X y cf (Some p) names init true kw = (c1, Ok tt) ->
  exists c2 x1 x2, fit w' cl X' y' cf' (Some p) names' init true kw = (c2, Ok tt) /\
    c_rs c1 = Some x1 /\ c_rs c2 = Some x2 /\ rs_rules x1 = rs_rules x2 /\ rs_uncov x1 = rs_uncov x2 /\
    c_sel c1 = c_sel c2 /\ c_cf c1 = c_cf c2 /\ c_pc c1 = c_pc c2 /\ c_bt c1 = c_bt c2.
Proof.
  intros w w' cl X y cf names X' y' cf' names' f vs vs' ix ix' fr fr' s p init kw c1 WO WO' EH T T' ND ND' TB TB' RO SF h KP NB PR H.
  apply (order_core w w' cl X y cf names X' y' cf' names' f vs vs' ix ix' fr fr' s p init kw c1); auto.
  intros R _ t l l' K. apply split_none; [apply WO|apply WO'|unfold prune_off; apply Qeq_bool_iff; exact PR|exact K].
Qed.
Print Assumptions C100_row_order.

(** The same with pruning, when the row labels move with the rows and the random splits do not depend on the order of the examples they split *)
Theorem C100_row_order_pruning : forall w cl X y cf names X' y' cf' names' f vs vs' ix ix' fr fr' s p init kw c1,
  world_ok w -> order_blind (w_env w) ->
  training_input X y cf names f vs ix -> training_input X' y' cf' names' f vs' ix' -> NoDup ix -> NoDup ix' ->
  table_of X names fr -> table_of X' names' fr' -> reordered f fr vs fr' vs' s -> labels_move s ix ix' -> same_first f fr fr' ->
  let h := hyper_of cl kw in
  (forall g, In g (feature_columns f fr) -> same_bins (h_nbins h) w w fr fr' g) ->
  (h_nbins h = None \/ exists n, h_nbins h = Some n /\ (0 <= n)%Z) ->
  fit w cl X y cf (Some p) names init true kw = (c1, Ok tt) ->
  exists c2 x1 x2, fit w cl X' y' cf' (Some p) names' init true kw = (c2, Ok tt) /\
    c_rs c1 = Some x1 /\ c_rs c2 = Some x2 /\ rs_rules x1 = rs_rules x2 /\ rs_uncov x1 = rs_uncov x2 /\
    c_sel c1 = c_sel c2 /\ c_cf c1 = c_cf c2 /\ c_pc c1 = c_pc c2 /\ c_bt c1 = c_bt c2.
Proof.
  intros w cl X y cf names X' y' cf' names' f vs vs' ix ix' fr fr' s p init kw c1 WO OB T T' ND ND' TB TB' RO LM SF h KP NB H.
  apply (order_core w w cl X y cf names X' y' cf' names' f vs vs' ix ix' fr fr' s p init kw c1); auto.
  intros R HR t l l' (q & P & F). assert (EQ : forall i i', R i i' -> i = i') by (intros i i' K; destruct (HR _ _ K) as (k & j & A & B & C); rewrite (LM _ _ A) in C; congruence).
  assert (RR : forall i, In i l' -> R i i) by (intros i I; clear -F I EQ; induction F as [|u v ? ? K F IH]; [destruct I|]; destruct I as [<-|I]; [assert (u = v) by auto; subst; exact K|auto]).
  assert (QL : q = l') by (clear -F EQ; induction F; f_equal; auto). subst q.
  assert (RF : forall z, (forall i, In i z -> In i l') -> Rp R z z).
  { intros z Z. exists z. split; [apply Permutation_refl|]. induction z as [|i z IH]; constructor; [apply RR, Z; left; reflexivity|apply IH; intros k K; apply Z; right; exact K]. }
  assert (SH := ok_shuf _ (proj1 WO) t l').
  unfold random_split. rewrite (OB t l l' P), (Permutation_length P). cbn [fst snd]. split; apply RF; intros i I; (eapply Permutation_in; [exact SH|]).
  - unfold take in I. eapply firstn_In; eauto.
  - unfold drop in I. eapply skipn_In; eauto.
Qed.
Print Assumptions C100_row_order_pruning.

(** The two models answer alike, whatever they are asked about: the same predictions, reasons and probabilities, or the same exception *)
Lemma same_answers w w' cl X y cf pc names init cnopt kw X' y' cf' pc' names' init' cnopt' kw' c1 c2 x1 x2 :
  fit w cl X y cf pc names init cnopt kw = (c1, Ok tt) -> fit w' cl X' y' cf' pc' names' init' cnopt' kw' = (c2, Ok tt) ->
  c_rs c1 = Some x1 -> c_rs c2 = Some x2 -> rs_rules x1 = rs_rules x2 -> rs_uncov x1 = rs_uncov x2 -> c_sel c1 = c_sel c2 -> c_cf c1 = c_cf c2 -> c_pc c1 = c_pc c2 -> c_bt c1 = c_bt c2 ->
  forall Z znames, snd (clf_predict c1 Z znames) = snd (clf_predict c2 Z znames) /\ snd (clf_predict_reasons c1 Z znames) = snd (clf_predict_reasons c2 Z znames) /\
    snd (clf_predict_proba c1 Z znames) = snd (clf_predict_proba c2 Z znames).
Proof.
  intros H1 H2 R1 R2 RR RU SS CC PP BB Z znames.
  destruct (fit_fitted _ _ _ _ _ _ _ _ _ _ _ H1) as (? & ? & ? & bt1 & ? & ? & ? & F1). destruct (fit_fitted _ _ _ _ _ _ _ _ _ _ _ H2) as (? & ? & ? & bt2 & ? & ? & ? & F2).
  destruct F1 as [_ _ _ _ _ _ _ B1 _ _ _ _ (g1 & _ & G1)]. destruct F2 as [_ _ _ _ _ _ _ B2 _ _ _ _ (g2 & _ & G2)]. rewrite B1, B2 in BB. injection BB as <-.
  assert (PF : prediction_frame c1 bt1 Z znames = prediction_frame c2 bt1 Z znames) by (unfold prediction_frame; rewrite SS, CC, PP, G1, G2; reflexivity).
  unfold clf_predict, clf_predict_reasons, clf_predict_proba, ensure_bt. rewrite R1, R2, B1, B2. cbn [snd bind attr]. rewrite PF, RR, PP. split; [reflexivity|]. split; [reflexivity|].
  destruct (df <- prediction_frame c2 bt1 Z znames ;; p <- attr (c_pc c2) ;; Ok (df, p)) as [ [df p]|]; [|reflexivity]. cbn [snd]. unfold rs_predict_proba. rewrite RR, RU. reflexivity.
Qed.
Theorem C100_same_predictions : forall w w' cl X y cf names X' y' cf' names' f vs vs' ix ix' fr fr' s p init kw c1 c2,
  world_ok w -> world_ok w' -> (forall l, e_hash (w_env w) l = e_hash (w_env w') l) ->
  training_input X y cf names f vs ix -> training_input X' y' cf' names' f vs' ix' -> NoDup ix -> NoDup ix' ->
  table_of X names fr -> table_of X' names' fr' -> reordered f fr vs fr' vs' s -> same_first f fr fr' ->
  let h := hyper_of cl kw in
  (forall g, In g (feature_columns f fr) -> same_bins (h_nbins h) w w' fr fr' g) ->
  (h_nbins h = None \/ exists n, h_nbins h = Some n /\ (0 <= n)%Z) -> (h_prune h == 0)%Q ->
  fit w cl X y cf (Some p) names init true kw = (c1, Ok tt) -> fit w' cl X' y' cf' (Some p) names' init true kw = (c2, Ok tt) ->
  forall Z znames, snd (clf_predict c1 Z znames) = snd (clf_predict c2 Z znames) /\ snd (clf_predict_reasons c1 Z znames) = snd (clf_predict_reasons c2 Z znames) /\
    snd (clf_predict_proba c1 Z znames) = snd (clf_predict_proba c2 Z znames).
Proof.
  intros w w' cl X y cf names X' y' cf' names' f vs vs' ix ix' fr fr' s p init kw c1 c2 WO WO' EH T T' ND ND' TB TB' RO SF h KP NB PR H H2.
  destruct (C100_row_order w w' cl X y cf names X' y' cf' names' f vs vs' ix ix' fr fr' s p init kw c1 WO WO' EH T T' ND ND' TB TB' RO SF KP NB PR H) as (c2' & x1 & x2 & H2' & A1 & A2 & A3 & A4 & A5 & A6 & A7 & A8).
  rewrite H2 in H2'. injection H2' as <-. eapply same_answers; eauto.
Qed.
Print Assumptions C100_same_predictions.

(** Non-vacuity: a table of visits in two orders, under a world whose splits depend on the set of examples only *)
Fixpoint insert_nat (i : nat) (l : list nat) : list nat := match l with [] => [i] | j :: t => if i <=? j then i :: l else j :: insert_nat i t end.
Definition sort_nat (l : list nat) : list nat := fold_right insert_nat [] l.
Lemma insert_swap i j l : insert_nat i (insert_nat j l) = insert_nat j (insert_nat i l).
Proof.
  induction l as [|k l IH]; cbn [insert_nat].
  - destruct (Nat.leb_spec i j), (Nat.leb_spec j i); try reflexivity; try lia. assert (i = j) by lia. subst. reflexivity.
  - destruct (Nat.leb_spec j k) as [A|A], (Nat.leb_spec i k) as [B|B]; cbn [insert_nat];
      repeat match goal with |- context[?x <=? ?y] => destruct (Nat.leb_spec x y) end; try lia; try reflexivity; try (assert (i = j) by lia; subst; reflexivity). rewrite IH. reflexivity.
Qed.
Lemma insert_perm i l : Permutation (insert_nat i l) (i :: l).
Proof. induction l as [|k l IH]; cbn [insert_nat]; [apply Permutation_refl|]. destruct (i <=? k); [apply Permutation_refl|]. eapply Permutation_trans; [apply perm_skip; exact IH|apply perm_swap]. Qed.
Lemma sort_perm l : Permutation (sort_nat l) l.
Proof. induction l as [|i l IH]; [apply perm_nil|]. cbn [sort_nat fold_right]. eapply Permutation_trans; [apply insert_perm|apply perm_skip; exact IH]. Qed.
Lemma sort_blind l l' : Permutation l l' -> sort_nat l = sort_nat l'.
Proof. induction 1; unfold sort_nat in *; cbn [fold_right]; [reflexivity|congruence|apply insert_swap|congruence]. Qed.
(* sorted, and every other time the other way round *)
Definition env_sorted : env := mkenv (fun t l => if Nat.even t then sort_nat l else rev (sort_nat l)) (e_split env0) (set_order env0) (e_hash env0).
Definition w_sorted : world := mkworld env_sorted cut0 (fun n l => firstn n l).
Lemma w_sorted_ok : world_ok w_sorted.
Proof.
  split; [|exact cut0_ok]. destruct env0_ok as [A B C D E]. split; [|exact B|exact C|exact D|exact E]. intros t l. cbn [env_sorted w_sorted w_env shuf]. destruct (Nat.even t); [apply sort_perm|]. eapply Permutation_trans; [apply Permutation_sym, Permutation_rev|apply sort_perm].
Qed.
Lemma w_sorted_blind : order_blind (w_env w_sorted).
Proof. intros t l l' P. cbn [w_sorted w_env env_sorted shuf]. rewrite (sort_blind _ _ P). reflexivity. Qed.
Definition visits : frame := mk_df [s_ "buys"; s_ "u"; s_ "v"] [0; 1; 2; 3; 4; 5; 6; 7] [s_ "y"; s_ "y"; s_ "n"; s_ "y"; s_ "n"; s_ "n"; s_ "y"; s_ "n"]
  [[s_ "a"; PInt 1]; [s_ "b"; PInt 1]; [s_ "a"; PInt 2]; [s_ "b"; PInt 1]; [s_ "c"; PInt 2]; [s_ "a"; PInt 1]; [s_ "b"; PInt 2]; [s_ "c"; PInt 2]].
Definition visits2 : frame := mk_df [s_ "buys"; s_ "u"; s_ "v"] [5; 6; 3; 2; 0; 7; 1; 4] [s_ "n"; s_ "y"; s_ "y"; s_ "n"; s_ "y"; s_ "n"; s_ "y"; s_ "n"]
  [[s_ "a"; PInt 1]; [s_ "b"; PInt 2]; [s_ "b"; PInt 1]; [s_ "a"; PInt 2]; [s_ "a"; PInt 1]; [s_ "c"; PInt 2]; [s_ "b"; PInt 1]; [s_ "c"; PInt 2]].
Definition visits_s : list nat := [5; 6; 3; 2; 0; 7; 1; 4].
Definition buys (fr : frame) : list pyval := column fr (s_ "buys").
Lemma visits_input fr : fr = visits \/ fr = visits2 -> training_input (DFrame fr) None (Some (s_ "buys")) None (s_ "buys") (buys fr) (labels (frows fr)).
Proof.
  intros A. apply (input_column _ _ _ _ _ _ _ fr); [reflexivity|reflexivity|apply table_frame|apply good_frameb_ok; destruct A; subst fr; vm_compute; reflexivity|destruct A; subst fr; discriminate|exists (s_ "buys"); split; [destruct A; subst fr; left; reflexivity|reflexivity]|split; [destruct A; subst fr; reflexivity|]|reflexivity].
  intros i rw v H1 H2. destruct A; subst fr; (do 8 (destruct i as [|i]; [injection H1 as <-; injection H2 as <-; exists 0, (s_ "buys"); repeat split; reflexivity|]); destruct i; discriminate).
Qed.
Lemma visits_reordered : reordered (s_ "buys") visits (buys visits) visits2 (buys visits2) visits_s.
Proof.
  split; [reflexivity|reflexivity| | |].
  - rewrite <- (sort_perm visits_s). reflexivity.
  - intros i j r r' g v N R R' I. rewrite <- !cell_value_at by (apply distinct_b; reflexivity).
    do 8 (destruct i as [|i]; [injection N as <-; injection R as <-; injection R' as <-; destruct I as [<-|[<-|[] ] ]; vm_compute; tauto|]). destruct i; discriminate N.
  - intros i j N. do 8 (destruct i as [|i]; [injection N as <-; reflexivity|]). destruct i; discriminate N.
Qed.
Lemma visits_labels : labels_move visits_s (labels (frows visits)) (labels (frows visits2)).
Proof. intros i j N. do 8 (destruct i as [|i]; [injection N as <-; reflexivity|]). destruct i; discriminate N. Qed.
Lemma visits_first : same_first (s_ "buys") visits visits2.
Proof.
  intros g cs cs' I C C'. assert (P : column_present visits g /\ column_present visits2 g) by (split; apply has_col_iff; destruct I as [<-|[<-|[] ] ]; reflexivity).
  destruct (col_values visits g cs) as [_ <-]; [apply good_frameb_ok; reflexivity|apply P|exact C|]. destruct (col_values visits2 g cs') as [_ <-]; [apply good_frameb_ok; reflexivity|apply P|exact C'|]. destruct I as [<-|[<-|[] ] ]; reflexivity.
Qed.
Lemma visits_kept nb g : nb = Some 2%Z \/ nb = Some 10%Z -> In g (feature_columns (s_ "buys") visits) -> kept_as_is nb visits g.
Proof. intros N I. apply kept_b; [reflexivity|apply present_b; destruct I as [<-|[<-|[] ] ]; reflexivity|destruct N; subst nb; destruct I as [<-|[<-|[] ] ]; reflexivity]. Qed.
Definition visits_irep : clf := fst (fit w1 irep_full (DFrame visits) None (Some (s_ "buys")) (Some (s_ "y")) None MNone true []).
Lemma visits_irep_ok : fit w1 irep_full (DFrame visits) None (Some (s_ "buys")) (Some (s_ "y")) None MNone true [] = (visits_irep, Ok tt).
Proof. unfold visits_irep. apply surjective_pairing_ok. vm_compute. reflexivity. Qed.
Lemma visits_irep_rules : option_map (fun x => map rule_str (rs_rules x)) (c_rs visits_irep) = Some [$"[u=b]"; $"[v=1]"]. Proof. vm_compute. reflexivity. Qed.
Definition visits_ripper : clf := fst (fit w_sorted (construct RIPPER_ []) (DFrame visits) None (Some (s_ "buys")) (Some (s_ "y")) None MNone true []).
Lemma visits_ripper_ok : fit w_sorted (construct RIPPER_ []) (DFrame visits) None (Some (s_ "buys")) (Some (s_ "y")) None MNone true [] = (visits_ripper, Ok tt).
Proof. unfold visits_ripper. apply surjective_pairing_ok. vm_compute. reflexivity. Qed.
Lemma visits_ripper_rules : option_map (fun x => map rule_str (rs_rules x)) (c_rs visits_ripper) = Some [$"[u=b]"]. Proof. vm_compute. reflexivity. Qed.
Opaque visits_irep visits_ripper.
Lemma visits_nodup : NoDup (labels (frows visits)) /\ NoDup (labels (frows visits2)).
Proof. split; repeat constructor; cbn; intuition discriminate. Qed.
Example C100_nonvacuous : exists c2 x1 x2, fit w_sorted irep_full (DFrame visits2) None (Some (s_ "buys")) (Some (s_ "y")) None MNone true [] = (c2, Ok tt) /\
    c_rs visits_irep = Some x1 /\ c_rs c2 = Some x2 /\ rs_rules x1 = rs_rules x2 /\ map rule_str (rs_rules x1) = [$"[u=b]"; $"[v=1]"].
Proof.
  destruct (C100_row_order w1 w_sorted irep_full (DFrame visits) None (Some (s_ "buys")) None (DFrame visits2) None (Some (s_ "buys")) None (s_ "buys") (buys visits) (buys visits2) (labels (frows visits)) (labels (frows visits2)) visits visits2 visits_s
    (s_ "y") MNone [] visits_irep w1_ok w_sorted_ok (fun l => eq_refl) (visits_input _ (or_introl eq_refl)) (visits_input _ (or_intror eq_refl)) (proj1 visits_nodup) (proj2 visits_nodup)) as (c2 & x1 & x2 & E & R1 & R2 & RR & _).
  - apply table_frame.
  - apply table_frame.
  - exact visits_reordered.
  - exact visits_first.
  - intros g I. left. apply visits_kept; [left; reflexivity|exact I].
  - right. exists 2%Z. split; [reflexivity|discriminate].
  - reflexivity.
  - exact visits_irep_ok.
  - exists c2, x1, x2. do 4 (split; auto). pose proof visits_irep_rules as S. rewrite R1 in S. cbn [option_map] in S. injection S as S. exact S.
Qed.
Example C100_pruning_nonvacuous : exists c2 x1 x2, fit w_sorted (construct RIPPER_ []) (DFrame visits2) None (Some (s_ "buys")) (Some (s_ "y")) None MNone true [] = (c2, Ok tt) /\
    c_rs visits_ripper = Some x1 /\ c_rs c2 = Some x2 /\ rs_rules x1 = rs_rules x2 /\ map rule_str (rs_rules x1) = [$"[u=b]"].
Proof.
  destruct (C100_row_order_pruning w_sorted (construct RIPPER_ []) (DFrame visits) None (Some (s_ "buys")) None (DFrame visits2) None (Some (s_ "buys")) None (s_ "buys") (buys visits) (buys visits2) (labels (frows visits)) (labels (frows visits2)) visits visits2 visits_s
    (s_ "y") MNone [] visits_ripper w_sorted_ok w_sorted_blind (visits_input _ (or_introl eq_refl)) (visits_input _ (or_intror eq_refl)) (proj1 visits_nodup) (proj2 visits_nodup)) as (c2 & x1 & x2 & E & R1 & R2 & RR & _).
  - apply table_frame.
  - apply table_frame.
  - exact visits_reordered.
  - exact visits_labels.
  - exact visits_first.
  - intros g I. left. apply visits_kept; [right; reflexivity|exact I].
  - right. exists 10%Z. split; [reflexivity|discriminate].
  - exact visits_ripper_ok.
  - exists c2, x1, x2. do 4 (split; auto). pose proof visits_ripper_rules as S. rewrite R1 in S. cbn [option_map] in S. injection S as S. exact S.
Qed.
Transparent visits_irep visits_ripper.

(** A numeric column that is cut: four temperatures, two bins, and both orders are cut at the same places *)
Definition days : frame := mk_df [s_ "buys"; s_ "t"; s_ "u"] [0; 1; 2; 3; 4; 5] [s_ "n"; s_ "y"; s_ "y"; s_ "n"; s_ "n"; s_ "y"]
  [[PInt 3; s_ "a"]; [PInt (-5); s_ "a"]; [PInt (-5); s_ "b"]; [PInt 8; s_ "b"]; [PInt 12; s_ "a"]; [PInt (-5); s_ "a"]].
Definition days2 : frame := mk_df [s_ "buys"; s_ "t"; s_ "u"] [0; 5; 2; 1; 3; 4] [s_ "n"; s_ "y"; s_ "y"; s_ "y"; s_ "n"; s_ "n"]
  [[PInt 3; s_ "a"]; [PInt (-5); s_ "a"]; [PInt (-5); s_ "b"]; [PInt (-5); s_ "a"]; [PInt 8; s_ "b"]; [PInt 12; s_ "a"]].
Definition days_s : list nat := [0; 5; 2; 1; 3; 4].
Lemma days_input fr : fr = days \/ fr = days2 -> training_input (DFrame fr) None (Some (s_ "buys")) None (s_ "buys") (buys fr) (labels (frows fr)).
Proof.
  intros A. apply (input_column _ _ _ _ _ _ _ fr); [reflexivity|reflexivity|apply table_frame|apply good_frameb_ok; destruct A; subst fr; vm_compute; reflexivity|destruct A; subst fr; discriminate|exists (s_ "buys"); split; [destruct A; subst fr; left; reflexivity|reflexivity]|split; [destruct A; subst fr; reflexivity|]|reflexivity].
  intros i rw v H1 H2. destruct A; subst fr; (do 6 (destruct i as [|i]; [injection H1 as <-; injection H2 as <-; exists 0, (s_ "buys"); repeat split; reflexivity|]); destruct i; discriminate).
Qed.
Lemma days_reordered : reordered (s_ "buys") days (buys days) days2 (buys days2) days_s.
Proof.
  split; [reflexivity|reflexivity| | |].
  - rewrite <- (sort_perm days_s). reflexivity.
  - intros i j r r' g v N R R' I. rewrite <- !cell_value_at by (apply distinct_b; reflexivity).
    do 6 (destruct i as [|i]; [injection N as <-; injection R as <-; injection R' as <-; destruct I as [<-|[<-|[] ] ]; vm_compute; tauto|]). destruct i; discriminate N.
  - intros i j N. do 6 (destruct i as [|i]; [injection N as <-; reflexivity|]). destruct i; discriminate N.
Qed.
Lemma days_values g cs cs' : In g (feature_columns (s_ "buys") days) -> column_values days g cs -> column_values days2 g cs' -> cs = column days g /\ cs' = column days2 g.
Proof.
  intros I C C'. assert (P : column_present days g /\ column_present days2 g) by (split; apply has_col_iff; destruct I as [<-|[<-|[] ] ]; reflexivity).
  destruct (col_values days g cs) as [_ <-]; [apply good_frameb_ok; reflexivity|apply P|exact C|]. destruct (col_values days2 g cs') as [_ <-]; [apply good_frameb_ok; reflexivity|apply P|exact C'|]. auto.
Qed.
Lemma days_first : same_first (s_ "buys") days days2.
Proof. intros g cs cs' I C C'. destruct (days_values g cs cs' I C C') as [-> ->]. destruct I as [<-|[<-|[] ] ]; reflexivity. Qed.
Lemma days_bins nb g : In g (feature_columns (s_ "buys") days) -> same_bins nb w1 w_sorted days days2 g.
Proof. intros I. right. intros n cs cs' _ C C'. destruct (days_values g cs cs' I C C') as [-> ->]. destruct I as [<-|[<-|[] ] ]; reflexivity. Qed.
Definition days_irep : clf := fst (fit w1 irep_full (DFrame days) None (Some (s_ "buys")) (Some (s_ "y")) None MNone true []).
Lemma days_irep_ok : fit w1 irep_full (DFrame days) None (Some (s_ "buys")) (Some (s_ "y")) None MNone true [] = (days_irep, Ok tt).
Proof. unfold days_irep. apply surjective_pairing_ok. vm_compute. reflexivity. Qed.
Lemma days_irep_rules : option_map (fun x => map rule_str (rs_rules x)) (c_rs days_irep) = Some [$"[t=<-5.0]"]. Proof. vm_compute. reflexivity. Qed.
Opaque days_irep.
Lemma days_nodup : NoDup (labels (frows days)) /\ NoDup (labels (frows days2)).
Proof. split; repeat constructor; cbn; intuition discriminate. Qed.
Example C100_bins_nonvacuous : ~ kept_as_is (Some 2%Z) days (s_ "t") /\ exists c2 x1 x2, fit w_sorted irep_full (DFrame days2) None (Some (s_ "buys")) (Some (s_ "y")) None MNone true [] = (c2, Ok tt) /\
    c_rs days_irep = Some x1 /\ c_rs c2 = Some x2 /\ rs_rules x1 = rs_rules x2 /\ map rule_str (rs_rules x1) = [$"[t=<-5.0]"].
Proof.
  split.
  - intros K. assert (G : good_frame days) by (apply good_frameb_ok; reflexivity). apply (K 2%Z (column days (s_ "t")) eq_refl ltac:(lia)).
    + apply (raw_values _ _ _ _ _ _ _ _ _ (days_input _ (or_introl eq_refl)) (table_frame _) eq_refl G); reflexivity.
    + split; [apply numeric_iff; reflexivity|apply more_than_unique; reflexivity].
  - destruct (C100_row_order w1 w_sorted irep_full (DFrame days) None (Some (s_ "buys")) None (DFrame days2) None (Some (s_ "buys")) None (s_ "buys") (buys days) (buys days2) (labels (frows days)) (labels (frows days2)) days days2 days_s
      (s_ "y") MNone [] days_irep w1_ok w_sorted_ok (fun l => eq_refl) (days_input _ (or_introl eq_refl)) (days_input _ (or_intror eq_refl)) (proj1 days_nodup) (proj2 days_nodup)) as (c2 & x1 & x2 & E & R1 & R2 & RR & _).
    + apply table_frame.
    + apply table_frame.
    + exact days_reordered.
    + exact days_first.
    + intros g I. apply days_bins; exact I.
    + right. exists 2%Z. split; [reflexivity|discriminate].
    + reflexivity.
    + exact days_irep_ok.
    + exists c2, x1, x2. do 4 (split; auto). pose proof days_irep_rules as S. rewrite R1 in S. cbn [option_map] in S. injection S as S. exact S.
Qed.
Transparent days_irep.

(** The order of first appearance matters: of two conditions with the same gain the one seen first is taken. With room for one rule only, swapping the first two examples changes the model
    and its predictions. *)
Definition tie_rows : list (list pyval) := [[s_ "x"]; [s_ "y"]; [s_ "z"]].
Definition tie_rows2 : list (list pyval) := [[s_ "y"]; [s_ "x"]; [s_ "z"]].
Definition tie_fit (rows : list (list pyval)) : clf * res unit :=
  fit w1 (construct IREP_ [(P_prune, VQ 0); (P_max_rules, VOpt (Some 1%Z))]) (DRows rows) (Some (YList [s_ "p"; s_ "p"; s_ "n"])) (Some (s_ "class")) (Some (s_ "p")) (Some [s_ "a"]) MNone true [].
Theorem C100_first_appearance_refuted : world_ok w1 /\ snd (tie_fit tie_rows) = Ok tt /\ snd (tie_fit tie_rows2) = Ok tt /\
  option_map (fun x => map rule_str (rs_rules x)) (c_rs (fst (tie_fit tie_rows))) = Some [$"[a=x]"] /\
  option_map (fun x => map rule_str (rs_rules x)) (c_rs (fst (tie_fit tie_rows2))) = Some [$"[a=y]"] /\
  snd (clf_predict (fst (tie_fit tie_rows)) (DRows [[s_ "x"]]) (Some [s_ "a"])) = Ok [true] /\
  snd (clf_predict (fst (tie_fit tie_rows2)) (DRows [[s_ "x"]]) (Some [s_ "a"])) = Ok [false].
Proof. split; [exact w1_ok|]. do 5 (split; [vm_compute; reflexivity|]). vm_compute. reflexivity. Qed.
Print Assumptions C100_first_appearance_refuted.
