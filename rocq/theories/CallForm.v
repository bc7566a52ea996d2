(** * CallForm.v : fit depends only on the features, the labels and the index, not on where the class column sits *)
From Verif Require Import ClfFacts FitFacts FitRun PrepFacts TrainView.
Open Scope nat_scope.

Lemma Forall2_of_nth {A B} (R : A -> B -> Prop) l : forall k, length l = length k ->
  (forall i a b, nth_error l i = Some a -> nth_error k i = Some b -> R a b) -> Forall2 R l k.
Proof.
  induction l as [|a l IH]; intros [|b k] L H; try discriminate; constructor; [apply (H 0); auto|].
  apply IH; [cbn in L; lia|]. intros i. apply (H (S i)).
Qed.
Lemma Forall2_filter {A B} (R : A -> B -> Prop) p q l k : (forall a b, R a b -> p a = q b) -> Forall2 R l k -> Forall2 R (filter p l) (filter q k).
Proof. intros H F. induction F as [|a b l k R1 F IH]; cbn [filter]; [constructor|]. rewrite (H _ _ R1). destruct (q b); auto. Qed.
Lemma Forall2_map_eq {A B C} (R : A -> B -> Prop) (g : A -> C) (h : B -> C) l k : (forall a b, R a b -> g a = h b) -> Forall2 R l k -> map g l = map h k.
Proof. intros H F. induction F; cbn [map]; f_equal; auto. Qed.

Lemma ok_inj {A} (x y : A) : Ok x = Ok y -> x = y. Proof. intros H; injection H; auto. Qed.

(** rows with the same label, the same cells by name, and the same cells in order apart from one position *)
Definition rrel (ca cb : list pyval) (ja jb : nat) (r s : row) : Prop :=
  rlab r = rlab s /\ (forall g, cell ca g r = cell cb g s) /\ remove_nth ja (rcells r) = remove_nth jb (rcells s).
Record same_view (f : pyval) (a b : frame) : Prop := mksame {
  sv_a : good_frame a; sv_b : good_frame b;
  sv_drop : exists x, drop_col a f = Ok x /\ drop_col b f = Ok x;
  sv_col : column a f = column b f }.

Lemma option_ext {A} (o p : option A) : (forall a, o = Some a <-> p = Some a) -> o = p.
Proof. intros H. destruct o as [a|]; [symmetry; apply H; auto|]. destruct p as [b|]; auto. apply H; auto. Qed.
Lemma nth_same_len {A B} (k : list B) (l : list A) i a : length k = length l -> nth_error l i = Some a -> exists b, nth_error k i = Some b.
Proof. intros L H. assert (i < length k) by (rewrite L; apply nth_error_Some; congruence). destruct (nth_error k i) eqn:E; eauto. apply nth_error_None in E. lia. Qed.
Section SV.
Variables (f : pyval) (a b : frame).
Hypothesis SV : same_view f a b.
Lemma sv_has_f : has_col a f = true /\ has_col b f = true.
Proof.
  destruct SV as [_ _ (x & A & B) _]. unfold drop_col in *. destruct (col_pos (fcols a) f) as [j|] eqn:J; [|discriminate]. destruct (col_pos (fcols b) f) as [k|] eqn:K; [|discriminate].
  apply col_pos_spec in J. apply col_pos_spec in K. destruct J as (c & J1 & J2), K as (d & K1 & K2). split; apply has_col_iff; [exists c|exists d]; split; auto; eapply nth_error_In; eauto.
Qed.
Lemma sv_rows : exists ja jb, col_pos (fcols a) f = Some ja /\ col_pos (fcols b) f = Some jb /\ remove_nth ja (fcols a) = remove_nth jb (fcols b) /\
  Forall2 (rrel (fcols a) (fcols b) ja jb) (frows a) (frows b).
Proof.
  destruct sv_has_f as [Ha Hb]. destruct SV as [Ga Gb (x & A & B) C]. assert (A' := A). assert (B' := B). unfold drop_col in A, B.
  destruct (col_pos (fcols a) f) as [ja|] eqn:J; [|discriminate]. destruct (col_pos (fcols b) f) as [jb|] eqn:K; [|discriminate].
  apply ok_inj in A. apply ok_inj in B. subst x. injection B as B1 B2. exists ja, jb. split; auto. split; auto. split; auto.
  assert (LEN : length (frows a) = length (frows b)) by (apply (f_equal (@length row)) in B2; rewrite !map_length in B2; auto).
  apply Forall2_of_nth; auto. intros i r s R S.
  assert (N := f_equal (fun l => nth_error l i) B2). cbv beta in N. rewrite !nth_error_map, R, S in N. cbn [option_map] in N. injection N as N1 N2.
  split; [auto|]. split; [|auto]. intros g. destruct (py_eq f g) eqn:Q.
  - assert (EF : cell (fcols a) f r = cell (fcols b) f s).
    { assert (M := f_equal (fun l => nth_error l i) C). cbv beta in M. rewrite !column_nth, R, S in M by auto. cbn [option_map] in M. injection M as M.
      destruct (cell_some a f r) as (v & V); [apply Ga|auto|eapply nth_error_In; eauto|]. destruct (cell_some b f s) as (u & U); [apply Gb|auto|eapply nth_error_In; eauto|].
      unfold cell_or in M. rewrite V, U in *. congruence. }
    unfold cell in *. rewrite <- (col_pos_py_eq (fcols a) f g Q), <- (col_pos_py_eq (fcols b) f g Q). exact EF.
  - destruct (nth_same_len (map (fun r => mkrow (rlab r) (remove_nth ja (rcells r))) (frows a)) (frows a) i r) as (rx & X); [apply map_length|auto|].
    destruct (drop_col_values _ _ _ Ga A') as [_ Va]. destruct (drop_col_values _ _ _ Gb B') as [_ Vb]. cbn [frows fcols] in Va, Vb.
    apply option_ext. intros w. rewrite <- !value_at_cell by (apply Ga || apply Gb). rewrite <- (Va i r rx R X g w Q), <- (Vb i s rx S X g w Q). tauto.
Qed.
Lemma sv_has g : has_col a g = has_col b g.
Proof.
  destruct (py_eq f g) eqn:Q.
  - destruct sv_has_f as [Ha Hb]. assert (K : forall fr, has_col fr f = true -> has_col fr g = true).
    { intros fr H. apply has_col_iff in H. destruct H as (c & I & E). apply has_col_iff. exists c. split; auto. eapply py_eq_trans; eauto. }
    rewrite !K; auto.
  - destruct SV as [Ga Gb (x & A & B) _]. destruct (drop_col_values _ _ _ Ga A) as [Pa _]. destruct (drop_col_values _ _ _ Gb B) as [Pb _].
    destruct (has_col a g) eqn:Ha, (has_col b g) eqn:Hb; auto.
    + apply has_col_iff in Ha. assert (K : column_present x g) by (apply Pa; auto). apply Pb in K. destruct K as [K _]. apply has_col_iff in K. congruence.
    + apply has_col_iff in Hb. assert (K : column_present x g) by (apply Pb; auto). apply Pa in K. destruct K as [K _]. apply has_col_iff in K. congruence.
Qed.

Lemma sv_column g : column a g = column b g.
Proof.
  destruct sv_rows as (ja & jb & _ & _ & _ & F). unfold column. induction F as [|r s l k (_ & R & _) F IH]; [reflexivity|]. cbn [flat_map]. rewrite R, IH. reflexivity.
Qed.
Lemma sv_labels : labels (frows a) = labels (frows b).
Proof. destruct sv_rows as (ja & jb & _ & _ & _ & F). unfold labels. eapply Forall2_map_eq; [|exact F]. intros r s (R & _). exact R. Qed.
Lemma sv_len : length (frows a) = length (frows b).
Proof. destruct sv_rows as (ja & jb & _ & _ & _ & F). apply (Forall2_length _ _ _ F). Qed.
End SV.

(** the frame restricted to related rows *)
Lemma rrel_drop f a b ja jb la lb : col_pos (fcols a) f = Some ja -> col_pos (fcols b) f = Some jb -> remove_nth ja (fcols a) = remove_nth jb (fcols b) ->
  Forall2 (rrel (fcols a) (fcols b) ja jb) la lb -> drop_col (with_rows a la) f = drop_col (with_rows b lb) f.
Proof.
  intros A B C F. unfold drop_col. cbn [with_rows fcols frows]. rewrite A, B, C. do 2 f_equal. eapply Forall2_map_eq; [|exact F].
  intros r s (L & _ & R). rewrite L, R. reflexivity.
Qed.
Lemma rrel_eq ca cb ja jb g v r s : rrel ca cb ja jb r s -> cell_eq ca g v r = cell_eq cb g v s.
Proof. intros (_ & R & _). unfold cell_eq. rewrite R. reflexivity. Qed.
Lemma sv_split f a b p : same_view f a b -> exists pa na pb nb, pos_neg_split a f p = Ok (pa, na) /\ pos_neg_split b f p = Ok (pb, nb) /\
  labels (frows pa) = labels (frows pb) /\ labels (frows na) = labels (frows nb) /\ drop_col pa f = drop_col pb f /\ drop_col na f = drop_col nb f.
Proof.
  intros SV. destruct (sv_has_f _ _ _ SV) as [Ha Hb]. destruct (sv_rows _ _ _ SV) as (ja & jb & A & B & C & F). unfold pos_neg_split. rewrite Ha, Hb.
  do 4 eexists. split; [reflexivity|]. split; [reflexivity|]. cbn [frows with_rows].
  assert (FP : Forall2 (rrel (fcols a) (fcols b) ja jb) (pos_rows a f p) (pos_rows b f p)) by (apply Forall2_filter; auto; intros; eapply rrel_eq; eauto).
  assert (FN : Forall2 (rrel (fcols a) (fcols b) ja jb) (neg_rows a f p) (neg_rows b f p)) by (apply Forall2_filter; auto; intros; f_equal; eapply rrel_eq; eauto).
  split; [unfold labels; eapply Forall2_map_eq; [|exact FP]; intros ? ? (R & _); exact R|].
  split; [unfold labels; eapply Forall2_map_eq; [|exact FN]; intros ? ? (R & _); exact R|].
  split; eapply rrel_drop; eauto.
Qed.
Lemma sv_cn f a b : same_view f a b -> cn_make a f = cn_make b f.
Proof. intros SV. pose proof (sv_labels _ _ _ SV) as L. destruct SV as [_ _ (x & A & B) _]. unfold cn_make. rewrite A, B, L. reflexivity. Qed.
Lemma sv_train alg e h cnopt f a b p xi : same_view f a b -> train alg e h cnopt a f p xi = train alg e h cnopt b f p xi.
Proof.
  intros SV. destruct (sv_split f a b p SV) as (pa & na & pb & nb & A & B & LP & LN & DP & DN). pose proof (sv_cn _ _ _ SV) as CN.
  destruct alg; cbn [train]; unfold irep_train, ripper_train; rewrite CN, A, B; cbn [bind]; rewrite LP, LN, DP, DN; reflexivity.
Qed.
Lemma sv_trace e h cnopt f a b p xi : same_view f a b -> ripper_trace e h cnopt a f p xi = ripper_trace e h cnopt b f p xi.
Proof.
  intros SV. destruct (sv_split f a b p SV) as (pa & na & pb & nb & A & B & LP & LN & DP & DN). pose proof (sv_cn _ _ _ SV) as CN.
  unfold ripper_trace; rewrite CN, A, B; cbn [bind]; rewrite LP, LN, DP, DN; reflexivity.
Qed.
Lemma sv_cols f a b : same_view f a b -> cols_without a f = cols_without b f.
Proof. intros [_ _ (x & A & B) _]. unfold cols_without. rewrite A, B. reflexivity. Qed.

(** ** recalibration *)
Section REC.
Variables (f : pyval) (a b : frame) (ja jb : nat).
Hypothesis HAS : forall g, has_col a g = has_col b g.
Let R := rrel (fcols a) (fcols b) ja jb.
Definition frel (c d : frame) : Prop := fcols c = fcols a /\ fcols d = fcols b /\ Forall2 R (frows c) (frows d).
Definition orel (c d : res frame) : Prop := match c, d with Ok x, Ok y => frel x y | Err e, Err e' => e = e' | _, _ => False end.
Lemma conds_rel cs : forall c d, frel c d -> orel (conds_cover cs c) (conds_cover cs d).
Proof.
  induction cs as [|x t IH]; intros c d (C & D & F); cbn [conds_cover]; [split; auto|].
  unfold cond_covers, select_eq. assert (HC : has_col c (cfeat x) = has_col d (cfeat x)) by (unfold has_col in *; rewrite C, D; apply HAS). rewrite HC.
  destruct (has_col d (cfeat x)); cbn [bind]; [|reflexivity]. apply IH. split; [auto|]. split; [auto|]. cbn [frows with_rows]. rewrite C, D.
  apply Forall2_filter; auto. intros r s H. eapply rrel_eq; eauto.
Qed.
Lemma frel_pos c d p : frel c d -> num_pos c f p = num_pos d f p.
Proof.
  intros (C & D & F). unfold num_pos, has_col, pos_rows. rewrite C, D. change (existsb (fun c0 => py_eq c0 f) (fcols a)) with (has_col a f). change (existsb (fun c0 => py_eq c0 f) (fcols b)) with (has_col b f). rewrite HAS.
  destruct (has_col b f); auto. f_equal. eapply Forall2_length. apply Forall2_filter; [|exact F]. intros r s H. eapply rrel_eq; eauto.
Qed.
Lemma frel_neg c d p : frel c d -> num_neg c f p = num_neg d f p.
Proof.
  intros (C & D & F). unfold num_neg, has_col, neg_rows. rewrite C, D. change (existsb (fun c0 => py_eq c0 f) (fcols a)) with (has_col a f). change (existsb (fun c0 => py_eq c0 f) (fcols b)) with (has_col b f). rewrite HAS.
  destruct (has_col b f); auto. f_equal. eapply Forall2_length. apply Forall2_filter; [|exact F]. intros r s H. f_equal. eapply rrel_eq; eauto.
Qed.
Lemma frel_len c d : frel c d -> length (frows c) = length (frows d).
Proof. intros (_ & _ & F). apply (Forall2_length _ _ _ F). Qed.
Lemma frel_labels c d : frel c d -> labels (frows c) = labels (frows d).
Proof. intros (_ & _ & F). unfold labels. eapply Forall2_map_eq; [|exact F]. intros r s (H & _). exact H. Qed.
Hypothesis AB : frel a b.
Lemma stats_rel alpha p r : rule_class_stats alpha a f p r = rule_class_stats alpha b f p r.
Proof.
  unfold rule_class_stats, rule_covers. pose proof (conds_rel (conds r) a b AB) as H. destruct (conds_cover (conds r) a) as [c|], (conds_cover (conds r) b) as [d|]; cbn [orel] in H; try contradiction; [|subst; reflexivity].
  cbn [bind]. rewrite (frel_pos _ _ p H), (frel_len _ _ H). reflexivity.
Qed.
Lemma covers_rel rs : orel (rs_covers rs a) (rs_covers rs b).
Proof.
  unfold rs_covers. destruct (rs_isuniversal rs); [exact AB|]. destruct (rs_isnull rs); [split; [auto|]; split; [auto|constructor]|].
  assert (H : match mapM (fun r => rule_covers r a) rs, mapM (fun r => rule_covers r b) rs with Ok x, Ok y => Forall2 frel x y | Err e, Err e' => e = e' | _, _ => False end).
  { induction rs as [|r rs IH]; [constructor|]. cbn [mapM]. change (rule_covers r a) with (conds_cover (conds r) a). change (rule_covers r b) with (conds_cover (conds r) b). pose proof (conds_rel (conds r) a b AB) as K.
    destruct (conds_cover (conds r) a) as [c|], (conds_cover (conds r) b) as [d|]; cbn [orel] in K; try contradiction; cbn [bind]; [|auto].
    destruct (mapM (fun r0 => rule_covers r0 a) rs), (mapM (fun r0 => rule_covers r0 b) rs); try contradiction; cbn [bind]; auto. }
  destruct (mapM (fun r => rule_covers r a) rs) as [x|], (mapM (fun r => rule_covers r b) rs) as [y|]; try contradiction; cbn [bind orel]; [|auto].
  split; [auto|]. split; [auto|]. cbn [frows with_rows]. clear -H. induction H as [|c d x y (_ & _ & K) H IH]; [constructor|]. cbn [map concat]. apply Forall2_app; auto.
Qed.
Lemma uncov_rel ls : frel (with_rows a (drop_labels (frows a) ls)) (with_rows b (drop_labels (frows b) ls)).
Proof. split; [auto|]. split; [auto|]. cbn [frows with_rows]. unfold drop_labels. apply Forall2_filter; [|apply AB]. intros r s (L & _). rewrite L. reflexivity. Qed.
Lemma check_rel l : check_features a l = check_features b l.
Proof. unfold check_features. assert (E : forallb (has_col a) l = forallb (has_col b) l) by (induction l as [|x l IH]; cbn; [auto|rewrite IH, HAS; auto]). rewrite E. reflexivity. Qed.
Lemma recal_rel alpha x p : recalibrate alpha x a f p = recalibrate alpha x b f p.
Proof.
  unfold recalibrate. rewrite check_rel. destruct (check_features b _); cbn [bind]; auto.
  rewrite (mapM_ext (rule_class_stats alpha a f p) (rule_class_stats alpha b f p)) by (intros; apply stats_rel). destruct (mapM _ _); cbn [bind]; auto.
  pose proof (covers_rel (rs_rules x)) as H. destruct (rs_covers (rs_rules x) a) as [c|], (rs_covers (rs_rules x) b) as [d|]; cbn [orel] in H; try contradiction; [|subst; reflexivity].
  cbn [bind]. rewrite (frel_labels _ _ H). rewrite (frel_neg _ _ p (uncov_rel (labels (frows d)))), (frel_len _ _ (uncov_rel (labels (frows d)))). reflexivity.
Qed.
Lemma run_rel ms rm alpha x p : recalibrate_run ms rm alpha x a f p = recalibrate_run ms rm alpha x b f p.
Proof.
  unfold recalibrate_run. rewrite check_rel, !recalibrate_min_eq, recal_rel. destruct (check_features b _); auto. destruct (recalibrate alpha x b f p); auto.
  do 3 f_equal. generalize (@nil rule) as done. induction (rs_rules x) as [|r l IH]; intros done; [reflexivity|]. cbn [stats_run]. rewrite stats_rel. destruct (rule_class_stats alpha b f p r); auto.
Qed.
End REC.
Lemma sv_recal ms rm f a b alpha x p : same_view f a b -> recalibrate_run ms rm alpha x a f p = recalibrate_run ms rm alpha x b f p.
Proof.
  intros SV. destruct (sv_rows _ _ _ SV) as (ja & jb & _ & _ & _ & F). apply (run_rel f a b ja jb (sv_has _ _ _ SV)). split; [auto|]. split; auto.
Qed.

(** ** binning *)
Lemma mapM_In {A B} (g : A -> res B) l bs b : mapM g l = Ok bs -> In b bs -> exists a, In a l /\ g a = Ok b.
Proof. intros H. apply mapM_Ok in H. induction H as [|x y l k E F IH]; intros I; [contradiction|]. destruct I as [<-|I]; [exists x; split; [left|]; auto|]. destruct (IH I) as (z & Z & E'). exists z. split; [right|]; auto. Qed.

Lemma col_pos_remove cols f g j : col_pos cols f = Some j -> py_eq f g = false ->
  col_pos (remove_nth j cols) g = option_map (fun k => if k <? j then k else pred k) (col_pos cols g).
Proof.
  revert j. induction cols as [|c t IH]; intros j J N; [discriminate|]. cbn [col_pos] in *. destruct (py_eq c f) eqn:E.
  - injection J as <-. cbn [remove_nth]. assert (G : py_eq c g = false) by (rewrite (py_eq_rewrite _ _ _ E); auto). rewrite G. destruct (col_pos t g); reflexivity.
  - destruct (col_pos t f) as [j'|] eqn:J'; [|discriminate]. injection J as <-. cbn [remove_nth col_pos]. destruct (py_eq c g); [reflexivity|]. rewrite (IH j' eq_refl N).
    destruct (col_pos t g) as [k|] eqn:K; [|reflexivity]. assert (j' <> k) by (intros ->; eapply (col_pos_differ t f g); eauto). cbn [option_map]. destruct (Nat.ltb_spec (S k) (S j')), (Nat.ltb_spec k j'); try lia; f_equal; lia.
Qed.
Lemma remove_set {A} j k (v : A) l : j <> k -> remove_nth j (set_nth k v l) = set_nth (if k <? j then k else pred k) v (remove_nth j l).
Proof.
  revert j k. induction l as [|a l IH]; intros [|j] [|k] N; try lia; cbn [set_nth remove_nth]; auto;
    try (match goal with |- _ = set_nth ?n _ [] => destruct n; reflexivity end).
  rewrite IH by lia. destruct (Nat.ltb_spec (S k) (S j)), (Nat.ltb_spec k j); try lia; [reflexivity|]. destruct k as [|k]; [exfalso; lia|]. reflexivity.
Qed.
Lemma drop_set a f g vs : py_eq f g = false -> drop_col (set_col a g vs) f = (x <- drop_col a f ;; Ok (set_col x g vs)).
Proof.
  intros N. unfold set_col, drop_col. destruct (col_pos (fcols a) g) as [k|] eqn:K.
  - cbn [with_rows fcols frows]. destruct (col_pos (fcols a) f) as [j|] eqn:J; cbn [bind]; [|auto]. f_equal. cbn [fcols frows].
    rewrite (col_pos_remove _ _ _ _ J N), K. cbn [option_map]. unfold with_rows. cbn [fcols]. f_equal.
    assert (JK : j <> k) by (intros ->; eapply (col_pos_differ (fcols a) f g); eauto).
    clear K J. revert vs. induction (frows a) as [|r l IH]; intros [|v vs]; cbn [map combine]; auto. f_equal; [|apply IH]. cbn [fst snd rlab rcells]. f_equal. apply remove_set; auto.
  - destruct (col_pos (fcols a) f) as [j|] eqn:J; cbn [bind]; [|auto]. cbn [fcols frows]. rewrite (col_pos_remove _ _ _ _ J N), K. reflexivity.
Qed.
Lemma sv_set f a b g vs : same_view f a b -> py_eq f g = false -> has_col a g = true -> length vs = length (frows a) -> same_view f (set_col a g vs) (set_col b g vs).
Proof.
  intros SV N H L. assert (H' : has_col b g = true) by (rewrite <- (sv_has _ _ _ SV); auto). pose proof (sv_len _ _ _ SV) as LB.
  destruct SV as [[Wa Da] [Wb Db] (x & A & B) C]. destruct (set_col_spec a g vs Wa H L) as (A1 & _ & A3 & _ & A5). destruct (set_col_spec b g vs Wb H' ltac:(congruence)) as (B1 & _ & B3 & _ & B5).
  rewrite py_eq_sym in N. constructor.
  - split; auto. rewrite A1; auto.
  - split; auto. rewrite B1; auto.
  - exists (set_col x g vs). rewrite !drop_set by (rewrite py_eq_sym; auto). rewrite A, B. auto.
  - rewrite A5, B5; auto.
Qed.
Definition trel f (c d : res frame) : Prop := match c, d with Ok x, Ok y => same_view f x y | Err e, Err e' => e = e' | _, _ => False end.
Lemma sv_cols_transform f bt done bins : (forall g b, In (g, b) bins -> py_eq f g = false) -> forall a b, same_view f a b ->
  trel f (transform_cols bt done bins a) (transform_cols bt done bins b).
Proof.
  induction bins as [|[g bs] t IH]; intros N a b SV; cbn [transform_cols]; [exact SV|]. rewrite (sv_has _ _ _ SV), (sv_column _ _ _ SV).
  destruct (has_col b g && _) eqn:HC; [|apply IH; auto; intros; eapply N; right; eauto]. apply andb_prop in HC. destruct HC as [HC _].
  destruct (transform_feat bt g bs (column b g)) as [vs|] eqn:T; cbn [bind]; [|reflexivity]. destruct (transform_feat_ok _ _ _ _ _ T) as [L _].
  rewrite column_length in L by (auto; apply (sv_b _ _ _ SV)). apply IH; [intros; eapply N; right; eauto|].
  apply sv_set; auto; [eapply N; left; eauto|rewrite (sv_has _ _ _ SV); auto|rewrite (sv_len _ _ _ SV); auto].
Qed.
Lemma sv_transform f bt a b : (forall bins g b, bt_bins bt = Some bins -> In (g, b) bins -> py_eq f g = false) -> same_view f a b -> trel f (transform bt a) (transform bt b).
Proof.
  intros N SV. unfold transform. destruct (bt_bins bt) as [bins|]; [|reflexivity].
  assert (E : find_transformed bins a = find_transformed bins b).
  { unfold find_transformed. assert (FE : filter (fun p => has_col a (fst p) && is_text_col (column a (fst p))) bins = filter (fun p => has_col b (fst p) && is_text_col (column b (fst p))) bins).
    { apply filter_ext. intros p. rewrite (sv_has _ _ _ SV), (sv_column _ _ _ SV). reflexivity. } rewrite FE.
    assert (G : forall l, forallb (fun p : pyval * list str => forallb (fun v => match v with PStr s => str_in s (snd p) | _ => false end) (column a (fst p))) l =
      forallb (fun p : pyval * list str => forallb (fun v => match v with PStr s => str_in s (snd p) | _ => false end) (column b (fst p))) l).
    { induction l as [|p l IH]; [reflexivity|]. cbn [forallb]. rewrite IH, (sv_column _ _ _ SV). reflexivity. } rewrite G. reflexivity. }
  rewrite E. destruct (find_transformed bins b); cbn [bind]; [|reflexivity]. apply sv_cols_transform; auto. intros. eapply N; eauto.
Qed.
Lemma filter_remove {A} (p : A -> bool) l j x : nth_error l j = Some x -> p x = false -> filter p (remove_nth j l) = filter p l.
Proof. revert j. induction l as [|a l IH]; intros [|j] H N; try discriminate; cbn [remove_nth filter nth_error] in *; [injection H as ->; rewrite N; auto|]. rewrite (IH j H N). reflexivity. Qed.
Lemma sv_feats f a b nbins : same_view f a b -> find_continuous_feats nbins a [f] = find_continuous_feats nbins b [f].
Proof.
  intros SV. destruct (sv_rows _ _ _ SV) as (ja & jb & A & B & C & _). unfold find_continuous_feats. destruct nbins as [n|]; [|reflexivity]. destruct (n =? 0)%Z; [reflexivity|].
  destruct (col_pos_spec _ _ _ A) as (c & A1 & A2). destruct (col_pos_spec _ _ _ B) as (d & B1 & B2).
  rewrite <- (filter_remove _ (fcols a) ja c A1), <- (filter_remove _ (fcols b) jb d B1), C.
  - apply filter_ext. intros g. rewrite (sv_column _ _ _ SV). reflexivity.
  - cbn [existsb]. rewrite (py_eq_sym f d), B2. cbn [orb negb]. apply Bool.andb_false_r.
  - cbn [existsb]. rewrite (py_eq_sym f c), A2. cbn [orb negb]. apply Bool.andb_false_r.
Qed.
Lemma feats_not f fr nbins g : In g (find_continuous_feats nbins fr [f]) -> py_eq f g = false.
Proof.
  unfold find_continuous_feats. destruct nbins as [n|]; [|intros []]. destruct (n =? 0)%Z; [intros []|]. intros H. apply filter_In in H. destruct H as [_ H].
  apply andb_prop in H. destruct H as [_ H]. cbn [existsb] in H. destruct (py_eq f g); [discriminate|reflexivity].
Qed.
Definition frel2 f (c d : res (bin_transformer * frame)) : Prop :=
  match c, d with Ok (b, x), Ok (b', y) => b = b' /\ same_view f x y | Err e, Err e' => e = e' | _, _ => False end.
Lemma sv_fit_transform f cut nbins a b : same_view f a b -> frel2 f (fit_transform cut nbins a [f]) (fit_transform cut nbins b [f]).
Proof.
  intros SV. unfold fit_transform. assert (E : fit_bins cut nbins a [f] = fit_bins cut nbins b [f]).
  { unfold fit_bins. rewrite (sv_feats _ _ _ _ SV). erewrite mapM_ext; [reflexivity|]. intros g _. cbv beta. rewrite (sv_column _ _ _ SV). reflexivity. }
  rewrite E. destruct (fit_bins cut nbins b [f]) as [bt|] eqn:FB; cbn [bind]; [|reflexivity].
  assert (N : forall bins g bs, bt_bins bt = Some bins -> In (g, bs) bins -> py_eq f g = false).
  { intros bins g bs HB I. unfold fit_bins in FB. binv FB. injection FB as <-. cbn [bt_bins] in HB. injection HB as <-. apply filter_In in I. destruct I as [I _].
    destruct (mapM_In _ _ _ _ E0 I) as (h & Ih & Eh). cbv beta in Eh. binv Eh. binv Eh. injection Eh as <- _. eapply feats_not; eauto. }
  pose proof (sv_transform f bt a b N SV) as T. destruct (transform bt a), (transform bt b); cbn [trel] in T; try contradiction; cbn [bind frel2]; auto.
Qed.

(** ** the whole call *)
Definition pre_rel (f : pyval) (c d : res (frame * pyval * pyval * bin_transformer)) : Prop :=
  match c, d with
  | Ok (a, f1, p, bt), Ok (b, f2, p', bt') => f1 = f /\ f2 = f /\ p = p' /\ bt = bt' /\ same_view f a b /\ frows a <> []
  | Err e, Err e' => e = e' | _, _ => False end.
Lemma fit_rel w cl X y cf names X' y' cf' names' pc init cnopt kw f :
  pre_rel f (fit_pre w cl X y cf pc names kw) (fit_pre w cl X' y' cf' pc names' kw) ->
  fit w cl X y cf pc names init cnopt kw = fit w cl X' y' cf' pc names' init cnopt kw.
Proof.
  unfold fit_pre, fit_nbins, fit. intros H. destruct (c_alg cl) eqn:EA.
  - destruct (irep_start init) as [x0|] eqn:E0; auto. unfold irep_fit. rewrite E0.
    destruct (preprocess_training _ _ X y cf pc names) as [[[[a f1] p] bt]|], (preprocess_training _ _ X' y' cf' pc names') as [[[[b f2] p'] bt']|]; cbn [pre_rel] in H; try contradiction; [|subst; reflexivity].
    destruct H as (-> & -> & <- & <- & SV & NE). destruct (frommodel init) as [xi|]; cbn [bind]; [|reflexivity].
    pose proof (sv_train IREP_ (w_env w) (c_hyper (set_fit_params cl kw)) cnopt f a b p xi SV) as T. cbn [train] in T. rewrite T. destruct (irep_train _ _ _ b _ _ _) as [x1|]; [|reflexivity].
    rewrite (sv_cols _ _ _ SV). destruct (cols_without b f) as [feats|]; [|reflexivity].
    destruct (sv_has_f _ _ _ SV) as [Ha Hb]. assert (NB : frows b <> []) by (pose proof (sv_len _ _ _ SV); destruct (frows a), (frows b); try congruence; discriminate).
    erewrite (recal_train _ a); [|reflexivity..|auto|auto]. erewrite (recal_train _ b); [|reflexivity..|auto|auto]. rewrite (sv_recal _ _ _ _ _ _ _ _ SV). reflexivity.
  - unfold ripper_fit.
    destruct (preprocess_training _ _ X y cf pc names) as [[[[a f1] p] bt]|], (preprocess_training _ _ X' y' cf' pc names') as [[[[b f2] p'] bt']|]; cbn [pre_rel] in H; try contradiction; [|subst; reflexivity].
    destruct H as (-> & -> & <- & <- & SV & NE). destruct (frommodel init) as [xi|]; cbn [bind]; [|reflexivity].
    rewrite (sv_trace (w_env w) (c_hyper (set_fit_params cl kw)) cnopt f a b p xi SV). destruct (ripper_trace _ _ _ b _ _ _) as [lf [x1|]]; [|reflexivity].
    rewrite (sv_cols _ _ _ SV). destruct (cols_without b f) as [feats|]; [|reflexivity].
    destruct (sv_has_f _ _ _ SV) as [Ha Hb]. assert (NB : frows b <> []) by (pose proof (sv_len _ _ _ SV); destruct (frows a), (frows b); try congruence; discriminate).
    erewrite (recal_train _ a); [|reflexivity..|auto|auto]. erewrite (recal_train _ b); [|reflexivity..|auto|auto]. rewrite (sv_recal _ _ _ _ _ _ _ _ SV). reflexivity.
Qed.
