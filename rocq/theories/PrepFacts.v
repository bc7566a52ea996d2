(** * PrepFacts.v : facts about preprocessing *)
From Verif Require Export PrepSpec TransFacts DiscFacts CoverFacts MetricsFacts.
Open Scope nat_scope.

Lemma map_rows (l : list row) rows ix : map rcells l = rows -> labels l = ix ->
  l = map (fun p : nat * list pyval => mkrow (fst p) (snd p)) (combine ix rows).
Proof. intros <- <-. induction l as [|[a b] l IH]; cbn; [auto|f_equal; auto]. Qed.
Lemma width_const rows w : rows <> [] -> (forall r, In r rows -> length r = w) -> width rows = w.
Proof.
  unfold width. destruct rows as [|r rows]; [congruence|]. intros _ H. cbn [map fold_right]. rewrite (H r (or_introl eq_refl)).
  assert (K : fold_right Nat.max 0 (map (@length pyval) rows) <= w).
  { assert (H' : forall r, In r rows -> length r = w) by (intros; apply H; right; auto). clear -H'. induction rows as [|a l IH]; cbn; [lia|].
    rewrite (H' a) by (left; auto). specialize (IH ltac:(intros; apply H'; right; auto)). lia. }
  lia.
Qed.
Lemma pad_full w r : length r = w -> pad w r = r.
Proof. intros <-. unfold pad. rewrite Nat.sub_diag. cbn. apply app_nil_r. Qed.
Lemma to_df_rows rows w : rows <> [] -> (forall r, In r rows -> length r = w) ->
  to_df (DRows rows) = mkframe (int_names w) (map (fun p : nat * list pyval => mkrow (fst p) (snd p)) (combine (seq 0 (length rows)) rows)).
Proof.
  intros N H. unfold to_df. rewrite (width_const rows w N H). f_equal. clear N. generalize 0 as k.
  induction rows as [|r l IH]; intros k; cbn [length seq combine map fst snd]; [auto|]. rewrite pad_full by (apply H; left; auto). f_equal. apply IH. intros; apply H; right; auto.
Qed.
Lemma int_names_length n : length (int_names n) = n.
Proof. unfold int_names. rewrite map_length, seq_length. reflexivity. Qed.
Lemma table_rename X names fr : table_of X names fr -> rename names (to_df X) = Ok fr.
Proof.
  destruct 1 as [fr|cols rs l E|rows w fr N H E1 E2 E3|rows w fr N H E1 E2 E3].
  - reflexivity.
  - cbn. rewrite E, Nat.eqb_refl. reflexivity.
  - cbn [rename]. rewrite (to_df_rows rows w N H). f_equal. destruct fr as [c l]; cbn in *. subst c. f_equal. symmetry. apply map_rows; auto.
  - cbn [rename]. rewrite (to_df_rows rows w N H). cbn [fcols frows]. rewrite int_names_length, E3, Nat.eqb_refl. f_equal.
    destruct fr as [c l]; cbn in *. f_equal. symmetry. apply map_rows; auto.
Qed.
Lemma table_len X names fr : table_of X names fr -> data_len X = length (frows fr).
Proof.
  destruct 1 as [fr|cols rs l E|rows w fr N H E1 E2 E3|rows w fr N H E1 E2 E3]; cbn; auto; rewrite <- E1, map_length; auto.
Qed.
Lemma table_names X names fr : table_of X names fr -> known_names X names = fcols fr.
Proof.
  destruct 1 as [fr|cols rs l E|rows w fr N H E1 E2 E3|rows w fr N H E1 E2 E3]; cbn; auto.
  rewrite E3. unfold int_names. replace (length (hd [] rows)) with w; auto. destruct rows as [|r l]; [congruence|]. cbn. symmetry. apply H. left; auto.
Qed.

(** ** set_index, put_col *)
Lemma set_index_spec fr ix : length ix = length (frows fr) ->
  fcols (set_index fr ix) = fcols fr /\ labels (frows (set_index fr ix)) = ix /\ map rcells (frows (set_index fr ix)) = map rcells (frows fr).
Proof.
  intros E. unfold set_index, labels. cbn [with_rows fcols frows]. split; auto. rewrite !map_map. cbn.
  revert ix E. induction (frows fr) as [|r l IH]; intros [|i ix] E; try discriminate; cbn; auto.
  destruct (IH ix) as [A B]; [cbn in E; lia|]. split; f_equal; auto.
Qed.
Lemma Forall_map_iff {A B} (P : B -> Prop) (f : A -> B) l : Forall P (map f l) <-> Forall (fun x => P (f x)) l.
Proof. induction l; cbn; split; intros H; inversion H; subst; constructor; auto; tauto. Qed.
Lemma wf_cells fr : wf_frame fr <-> Forall (fun cs => length cs = length (fcols fr)) (map rcells (frows fr)).
Proof. unfold wf_frame. rewrite Forall_map_iff, Forall_forall. tauto. Qed.
Lemma set_index_good fr ix : length ix = length (frows fr) -> good_frame fr -> good_frame (set_index fr ix).
Proof.
  intros E [W D]. destruct (set_index_spec fr ix E) as (A & _ & C). split; [|rewrite A; auto]. apply wf_cells in W. apply wf_cells. rewrite A, C; auto.
Qed.
Lemma nth_map_rcells l l' i r : map rcells l = map rcells l' -> nth_error l i = Some r -> exists r', nth_error l' i = Some r' /\ rcells r' = rcells r.
Proof.
  intros E H. assert (K : nth_error (map rcells l') i = Some (rcells r)) by (rewrite <- E, nth_error_map, H; reflexivity).
  rewrite nth_error_map in K. destruct (nth_error l' i); inversion K; eauto.
Qed.

Lemma value_at_app cols c rw v g w : length (rcells rw) = length cols -> py_eq c g = false ->
  (value_at (cols ++ [c]) (mkrow (rlab rw) (rcells rw ++ [v])) g w <-> value_at cols rw g w).
Proof.
  intros L N. unfold value_at. cbn [rcells]. split; intros (j & d & H1 & H2 & H3).
  - destruct (Nat.lt_ge_cases j (length cols)) as [J|J].
    + rewrite nth_error_app1 in H1 by auto. rewrite nth_error_app1 in H3 by lia. exists j, d; auto.
    + rewrite nth_error_app2 in H1 by auto. destruct (j - length cols) as [|k]; cbn in H1; [|destruct k; discriminate].
      injection H1 as <-. congruence.
  - assert (J : j < length cols) by (apply nth_error_Some; congruence). exists j, d. rewrite !nth_error_app1 by lia. auto.
Qed.

Lemma distinct_app cols c : distinct_cols cols -> existsb (fun d => py_eq d c) cols = false -> distinct_cols (cols ++ [c]).
Proof.
  intros D N i j a b Ha Hb E.
  assert (K : forall i a, nth_error cols i = Some a -> py_eq a c = false).
  { intros i0 a0 H. apply nth_error_In in H. destruct (py_eq a0 c) eqn:E'; auto. exfalso.
    assert (existsb (fun d => py_eq d c) cols = true) by (apply existsb_exists; eauto). congruence. }
  destruct (Nat.lt_ge_cases i (length cols)) as [I|I], (Nat.lt_ge_cases j (length cols)) as [J|J].
  - rewrite nth_error_app1 in Ha, Hb by auto. eapply D; eauto.
  - rewrite nth_error_app1 in Ha by auto. rewrite nth_error_app2 in Hb by auto. destruct (j - length cols) as [|k]; cbn in Hb; [|destruct k; discriminate].
    injection Hb as <-. rewrite (K i a Ha) in E. discriminate.
  - rewrite nth_error_app1 in Hb by auto. rewrite nth_error_app2 in Ha by auto. destruct (i - length cols) as [|k]; cbn in Ha; [|destruct k; discriminate].
    injection Ha as <-. rewrite py_eq_sym, (K j b Hb) in E. discriminate.
  - assert (nth_error (cols ++ [c]) i <> None) by congruence. assert (nth_error (cols ++ [c]) j <> None) by congruence.
    apply nth_error_Some in H, H0. rewrite app_length in *. cbn in *. lia.
Qed.

Lemma combine_nth_error {A B} (l : list A) (k : list B) i a b : nth_error l i = Some a -> nth_error k i = Some b -> nth_error (combine l k) i = Some (a, b).
Proof. revert k i. induction l as [|x l IH]; intros [|y k] [|i]; cbn; intros; try discriminate; auto; congruence. Qed.
Lemma set_nth_nth {A} (l : list A) j k v : nth_error (set_nth j v l) k = if k =? j then (if j <? length l then Some v else None) else nth_error l k.
Proof.
  revert j k. induction l as [|x l IH]; intros j k; cbn [set_nth].
  - destruct (k =? j), k, j; reflexivity.
  - destruct j, k; cbn; auto. rewrite IH. destruct (k =? j); auto.
Qed.
Lemma set_nth_len {A} (l : list A) j v : length (set_nth j v l) = length l.
Proof. revert j. induction l; intros [|j]; cbn; auto. Qed.

Lemma put_col_spec fr f vs : good_frame fr -> length vs = length (frows fr) -> py_eq f f = true ->
  good_frame (put_col fr f vs) /\ labelled fr vs f (labels (frows fr)) (put_col fr f vs).
Proof.
  intros [W D] L FF. unfold put_col. destruct (has_col fr f) eqn:HC.
  - destruct (col_pos_has fr f HC) as (j & E & J). destruct (col_pos_spec _ _ _ E) as (c & Hc & Ec).
    destruct (set_col_spec fr f vs W HC L) as (A1 & A2 & A3 & _).
    split; [split; [exact A3|rewrite A1; auto]|]. split; [exact A2|]. split; [|split].
    + unfold set_col. rewrite E. cbn. rewrite map_length, combine_length. lia.
    + intros g. unfold column_present. rewrite A1. split; auto. intros [H|H]; auto. exists c. split; [eapply nth_error_In; eauto|].
      rewrite (py_eq_rewrite _ _ _ Ec). auto.
    + intros i rx v Hx Hv. unfold set_col. rewrite E. cbn [with_rows fcols frows].
      assert (LX : length (rcells rx) = length (fcols fr)) by (apply W; eapply nth_error_In; eauto).
      exists (mkrow (rlab rx) (set_nth j v (rcells rx))). split; [|split].
      * rewrite nth_error_map, (combine_nth_error _ _ _ _ _ Hx Hv). reflexivity.
      * exists j, c. split; auto. split; auto. cbn [rcells]. rewrite set_nth_nth, Nat.eqb_refl. rewrite LX.
        destruct (Nat.ltb_spec j (length (fcols fr))); [auto|lia].
      * intros g w N. unfold value_at. cbn [rcells]. split; intros (k & d & H1 & H2 & H3); exists k, d; (split; [auto|split; [auto|]]).
        -- rewrite set_nth_nth in H3. destruct (Nat.eqb_spec k j) as [->|]; auto. rewrite Hc in H1. injection H1 as <-.
           rewrite (py_eq_rewrite _ _ _ Ec) in H2. congruence.
        -- rewrite set_nth_nth. destruct (Nat.eqb_spec k j) as [->|]; auto. rewrite Hc in H1. injection H1 as <-.
           rewrite (py_eq_rewrite _ _ _ Ec) in H2. congruence.
  - assert (LB : labels (map (fun p : row * pyval => mkrow (rlab (fst p)) (rcells (fst p) ++ [snd p])) (combine (frows fr) vs)) = labels (frows fr)).
    { unfold labels. rewrite map_map. cbn. clear -L. revert vs L. induction (frows fr) as [|r l IH]; intros [|v vs] L; try discriminate; cbn; auto. f_equal. apply IH. cbn in L; lia. }
    split; [split|].
    + intros r Hr. cbn [fcols frows] in *. apply in_map_iff in Hr. destruct Hr as ([a v] & <- & I). cbn. apply in_combine_l in I.
      rewrite !app_length, (W a I). reflexivity.
    + cbn. apply distinct_app; auto.
    + split; [exact LB|]. split; [|split].
      * cbn. rewrite map_length, combine_length. lia.
      * intros g. unfold column_present. cbn [fcols]. split.
        -- intros (c & I & H). apply in_app_or in I. destruct I as [I|[<-|[]]]; eauto.
        -- intros [(c & I & H)|H]; [exists c|exists f]; (split; [apply in_or_app; cbn; auto|auto]).
      * intros i rx v Hx Hv. cbn [fcols frows].
        assert (LX : length (rcells rx) = length (fcols fr)) by (apply W; eapply nth_error_In; eauto).
        exists (mkrow (rlab rx) (rcells rx ++ [v])). split; [|split].
        -- rewrite nth_error_map, (combine_nth_error _ _ _ _ _ Hx Hv). reflexivity.
        -- exists (length (fcols fr)), f. rewrite nth_error_app2, Nat.sub_diag by auto. split; auto. split; auto. cbn [rcells].
           rewrite nth_error_app2, LX, Nat.sub_diag by lia. reflexivity.
        -- intros g w N. apply value_at_app; auto.
Qed.

Lemma attach_spec fr y f : good_frame fr -> series_ok y -> length (y_vals y) = length (frows fr) -> py_eq f f = true ->
  exists df, attach_labels fr y f = Ok df /\ good_frame df /\ labelled fr (y_vals y) f (label_index y fr) df.
Proof.
  intros G S L FF. destruct y as [n ix vals|vals]; cbn [y_vals series_ok label_index attach_labels] in *.
  - rewrite S, L, Nat.eqb_refl. eexists. split; [reflexivity|].
    destruct (set_index_spec fr ix ltac:(congruence)) as (A & B & C).
    assert (LEN : length (frows (set_index fr ix)) = length (frows fr)).
    { apply (f_equal (@length _)) in C. rewrite !map_length in C. auto. }
    destruct (put_col_spec (set_index fr ix) f vals) as [P1 (P2 & P3 & P4 & P5)]; auto; [apply set_index_good; auto; congruence|congruence|].
    split; auto. rewrite B in P2. split; auto. split; [congruence|]. split.
    + intros g. rewrite P4. unfold column_present. rewrite A. tauto.
    + intros i rx v Hx Hv. destruct (nth_map_rcells _ _ _ _ (eq_sym C) Hx) as (rx' & Hx' & EC). destruct (P5 i rx' v Hx' Hv) as (rd & H1 & H2 & H3).
      exists rd. split; auto. split; auto. intros g w N. rewrite (H3 g w N), A. unfold value_at. rewrite EC. tauto.
  - rewrite L, Nat.eqb_refl. eexists. split; [reflexivity|]. apply put_col_spec; auto.
Qed.

Lemma training_df_spec X names fr y f : table_of X names fr -> good_frame fr -> series_ok y -> length (y_vals y) = length (frows fr) -> py_eq f f = true ->
  exists df, training_df X (Some y) f names = Ok df /\ good_frame df /\ labelled fr (y_vals y) f (label_index y fr) df.
Proof.
  intros T G S L FF. unfold training_df. rewrite (table_rename _ _ _ T). cbn [bind]. apply attach_spec; auto.
Qed.
