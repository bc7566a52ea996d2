(** * MetricsFacts.v : splits, helpers, scores, CatNap coverage *)
From Verif Require Export Learn RuleFacts.

(** ** C16 *)
Lemma norm_idx_in z n : (0 <= z <= Z.of_nat n)%Z -> norm_idx z n = Z.to_nat z.
Proof. intros H. unfold norm_idx. destruct (Z.ltb_spec z 0); lia. Qed.
Lemma random_split_spec e t size l a b : env_ok e -> (0 <= size)%Q -> (size <= 1)%Q ->
  random_split e t size l = (a, b) ->
  Permutation (a ++ b) l /\ Z.of_nat (length a) = e_split e size (length l).
Proof.
  intros O H0 H1 E. unfold random_split in E. injection E as <- <-.
  assert (P := ok_shuf e O t l). assert (R := ok_split_range e O size (length l) H0 H1).
  assert (L := Permutation_length P). unfold take, drop. rewrite !norm_idx_in by lia.
  rewrite firstn_skipn. split; auto. rewrite firstn_length. lia.
Qed.
Lemma random_split_second e t size l a b : env_ok e -> (0 <= size)%Q -> (size < 1)%Q -> l <> [] ->
  random_split e t size l = (a, b) -> b <> [].
Proof.
  intros O H0 H1 Hl E. assert (0 < length l) by (destruct l; [congruence|cbn; lia]).
  assert (R := ok_split_lt e O size (length l) H0 H1 H).
  destruct (random_split_spec e t size l a b O H0 (Qlt_le_weak _ _ H1) E) as [P L].
  intros ->. rewrite app_nil_r in P. apply Permutation_length in P. lia.
Qed.
Lemma random_split_incl e t size l a b : env_ok e -> (0 <= size)%Q -> (size <= 1)%Q ->
  random_split e t size l = (a, b) -> incl a l /\ incl b l.
Proof.
  intros O H0 H1 E. destruct (random_split_spec _ _ _ _ _ _ O H0 H1 E) as [P _].
  split; intros x Hx; eapply Permutation_in; eauto; apply in_or_app; auto.
Qed.
Lemma random_split_one e t size l a b : env_ok e -> (size == 1)%Q -> random_split e t size l = (a, b) -> Permutation a l /\ b = [].
Proof.
  intros O H1 E. destruct (random_split_spec e t size l a b O) as [P L]; auto; try (rewrite H1; discriminate).
  rewrite (ok_split_one e O size (length l) H1) in L. assert (L2 := Permutation_length P). rewrite app_length in L2.
  destruct b; [rewrite app_nil_r in P; auto|cbn in L2; lia].
Qed.
Lemma loc_app rs a b : loc rs (a ++ b) = loc rs a ++ loc rs b.
Proof. unfold loc. apply flat_map_app. Qed.
Lemma loc_perm rs a b : Permutation a b -> Permutation (loc rs a) (loc rs b).
Proof. unfold loc. apply Permutation_flat_map. Qed.
Lemma filter_label_rows rows rw : NoDup (map rlab rows) -> In rw rows -> filter (fun r => Nat.eqb (rlab r) (rlab rw)) rows = [rw].
Proof. intros D H. apply (filter_label (mkframe [] rows)); auto. Qed.
Lemma loc_all_aux rows l : NoDup (map rlab rows) -> incl l rows -> loc rows (map rlab l) = l.
Proof.
  intros D. induction l as [|a l IH]; intros H; auto. cbn. unfold loc in *. cbn.
  rewrite filter_label_rows by (auto; apply H; cbn; auto). cbn. f_equal. apply IH. intros x Hx; apply H; cbn; auto.
Qed.
Lemma loc_all rows : NoDup (labels rows) -> loc rows (labels rows) = rows.
Proof. intros D. apply loc_all_aux; auto. apply incl_refl. Qed.
Lemma loc_length rows ls : NoDup (labels rows) -> incl ls (labels rows) -> length (loc rows ls) = length ls.
Proof.
  intros D. induction ls as [|a l IH]; intros H; auto. cbn. rewrite app_length.
  assert (In a (labels rows)) as Ha by (apply H; cbn; auto). apply in_map_iff in Ha. destruct Ha as (rw & <- & Hrw).
  rewrite filter_label_rows by auto. cbn. f_equal. apply IH. intros x Hx; apply H; cbn; auto.
Qed.
Lemma labels_loc rows ls : NoDup (labels rows) -> incl ls (labels rows) -> labels (loc rows ls) = ls.
Proof.
  intros D. induction ls as [|a l IH]; intros H; auto. unfold loc, labels in *. cbn. rewrite map_app, IH by (intros x Hx; apply H; cbn; auto).
  assert (In a (map rlab rows)) as Ha by (apply H; cbn; auto). apply in_map_iff in Ha. destruct Ha as (rw & <- & Hrw).
  rewrite filter_label_rows by auto. auto.
Qed.
Lemma df_split_spec e t size rs a b : env_ok e -> (0 <= size)%Q -> (size <= 1)%Q -> NoDup (labels rs) ->
  df_shuffled_split e t size rs = (a, b) ->
  Permutation (a ++ b) rs /\ Z.of_nat (length a) = e_split e size (length rs).
Proof.
  intros O H0 H1 D E. unfold df_shuffled_split in E. destruct (random_split e t size (labels rs)) as [i1 i2] eqn:S.
  injection E as <- <-. destruct (random_split_spec _ _ _ _ _ _ O H0 H1 S) as [P L].
  split.
  - rewrite <- loc_app. transitivity (loc rs (labels rs)); [apply loc_perm; auto|rewrite loc_all; auto].
  - rewrite loc_length; auto; [unfold labels in L; rewrite map_length in L; auto|].
    intros x Hx. eapply Permutation_in; eauto. apply in_or_app; auto.
Qed.
Lemma df_split_second e t size rs a b : env_ok e -> (0 <= size)%Q -> (size < 1)%Q -> NoDup (labels rs) -> rs <> [] ->
  df_shuffled_split e t size rs = (a, b) -> b <> [].
Proof.
  intros O H0 H1 D Hl E. assert (0 < length rs) by (destruct rs; [congruence|cbn; lia]).
  assert (R := ok_split_lt e O size (length rs) H0 H1 H).
  destruct (df_split_spec e t size rs a b O H0 (Qlt_le_weak _ _ H1) D E) as [P L].
  intros ->. rewrite app_nil_r in P. apply Permutation_length in P. lia.
Qed.

(** ** C17 *)
Lemma cell_eq_value cols f v rw : distinct_cols cols ->
  (cell_eq cols f v rw = true <-> exists w, value_at cols rw f w /\ py_eq w v = true).
Proof. intros D. apply (cell_eq_sat cols (mkcond f v) rw D). Qed.
Lemma pos_neg_spec fr cf pc : good_frame fr -> column_present fr cf ->
  exists p n, pos_neg_split fr cf pc = Ok (p, n) /\ fcols p = fcols fr /\ fcols n = fcols fr /\
    picks (fun rw => exists w, value_at (fcols fr) rw cf w /\ py_eq w pc = true) (frows fr) (frows p) /\
    picks (fun rw => ~ exists w, value_at (fcols fr) rw cf w /\ py_eq w pc = true) (frows fr) (frows n) /\
    num_pos fr cf pc = Ok (length (frows p)) /\ num_neg fr cf pc = Ok (length (frows n)) /\
    length (frows p) + length (frows n) = length (frows fr).
Proof.
  intros [W D] P. unfold pos_neg_split, num_pos, num_neg. apply has_col_iff in P. rewrite P.
  eexists _, _; split; [reflexivity|]. cbn. split; auto. split; auto. split; [|split; [|split; [auto|split; [auto|]]]].
  - apply picks_filter. intros; apply cell_eq_value; auto.
  - apply picks_filter. intros rw _. rewrite negb_true_iff, <- not_true_iff_false, cell_eq_value by auto. tauto.
  - unfold pos_rows, neg_rows. apply filter_length_split.
Qed.
Lemma pos_neg_missing fr cf pc : ~ column_present fr cf -> pos_neg_split fr cf pc = Err KeyError /\
  num_pos fr cf pc = Err KeyError /\ num_neg fr cf pc = Err KeyError.
Proof. intros P. rewrite <- has_col_iff in P. unfold pos_neg_split, num_pos, num_neg. destruct (has_col fr cf); [congruence|auto]. Qed.

(** ** C18 *)
Lemma drop_labels_filter rows (p : row -> bool) : NoDup (labels rows) ->
  drop_labels rows (labels (filter p rows)) = filter (fun r => negb (p r)) rows.
Proof.
  intros D. unfold drop_labels. apply filter_ext_in. intros rw Hrw. f_equal. apply eq_true_iff_eq. rewrite nmem_In. split.
  - intros H. apply in_map_iff in H. destruct H as (x & E & Hx). apply filter_In in Hx. destruct Hx as [Hx Px].
    assert (x = rw) as -> by (apply (NoDup_map_inj rlab rows); auto). auto.
  - intros Hp. apply in_map. apply filter_In; auto.
Qed.
Lemma drop_labels_covered rows (cov : list row) (p : row -> bool) : NoDup (labels rows) ->
  (forall rw, In rw cov <-> In rw rows /\ p rw = true) ->
  drop_labels rows (labels cov) = filter (fun r => negb (p r)) rows.
Proof.
  intros D H. unfold drop_labels. apply filter_ext_in. intros rw Hrw. f_equal. apply eq_true_iff_eq. rewrite nmem_In. split.
  - intros G. apply in_map_iff in G. destruct G as (x & E & Hx). apply H in Hx. destruct Hx as [Hx Px].
    assert (x = rw) as -> by (apply (NoDup_map_inj rlab rows); auto). auto.
  - intros Hp. apply in_map. apply H; auto.
Qed.
Lemma rm_covered_rule r pos neg : good_frame pos -> good_frame neg -> distinct_labels pos -> distinct_labels neg ->
  features_present pos [r] -> features_present neg [r] ->
  exists p n, rm_covered (rule_covers r) pos neg = Ok (p, n) /\ fcols p = fcols pos /\ fcols n = fcols neg /\
    picks (fun rw => ~ sat_rule (fcols pos) rw r) (frows pos) (frows p) /\
    picks (fun rw => ~ sat_rule (fcols neg) rw r) (frows neg) (frows n).
Proof.
  assert (G : forall fr, good_frame fr -> distinct_labels fr -> features_present fr [r] ->
    exists p, rm_covered1 (rule_covers r) fr = Ok p /\ fcols p = fcols fr /\ picks (fun rw => ~ sat_rule (fcols fr) rw r) (frows fr) (frows p)).
  { intros fr [W D] L P. unfold rm_covered1. rewrite rule_covers_eq. erewrite present_conds by (eauto; cbn; auto). cbn [bind].
    eexists; split; [reflexivity|]. split; auto. cbn [with_rows frows]. rewrite drop_labels_filter by auto.
    apply picks_filter. intros rw _. rewrite negb_true_iff, <- not_true_iff_false, conds_sat_iff by auto. tauto. }
  intros G1 G2 L1 L2 P1 P2. unfold rm_covered. destruct (G pos G1 L1 P1) as (p & -> & ? & ?), (G neg G2 L2 P2) as (n & -> & ? & ?).
  cbn. exists p, n; auto.
Qed.
Lemma rm_covered_ruleset rs pos neg : good_frame pos -> good_frame neg -> distinct_labels pos -> distinct_labels neg ->
  features_present pos rs -> features_present neg rs ->
  exists p n, rm_covered (rs_covers rs) pos neg = Ok (p, n) /\ fcols p = fcols pos /\ fcols n = fcols neg /\
    picks (fun rw => ~ sat_ruleset (fcols pos) rw rs) (frows pos) (frows p) /\
    picks (fun rw => ~ sat_ruleset (fcols neg) rw rs) (frows neg) (frows n).
Proof.
  assert (G : forall fr, good_frame fr -> distinct_labels fr -> features_present fr rs ->
    exists p, rm_covered1 (rs_covers rs) fr = Ok p /\ fcols p = fcols fr /\ picks (fun rw => ~ sat_ruleset (fcols fr) rw rs) (frows fr) (frows p)).
  { intros fr [W D] L P. unfold rm_covered1. rewrite rs_covers_eq. apply all_present_iff in P. rewrite P, orb_true_r. cbn [bind].
    eexists; split; [reflexivity|]. split; auto. cbn [with_rows frows].
    rewrite (drop_labels_covered _ _ (sat_any (fcols fr) rs)) by (auto; intros; apply covered_rows_In).
    apply picks_filter. intros rw _. rewrite negb_true_iff, <- not_true_iff_false, sat_any_iff by auto. tauto. }
  intros G1 G2 L1 L2 P1 P2. unfold rm_covered. destruct (G pos G1 L1 P1) as (p & -> & ? & ?), (G neg G2 L2 P2) as (n & -> & ? & ?).
  cbn. exists p, n; auto.
Qed.

(** ** C19 *)
Lemma binom_0 n k : n < k -> binom n k = 0.
Proof. revert k; induction n; destruct k; cbn; intros; try lia; auto. rewrite !IHn; lia. Qed.
Lemma binom_n_0 n : binom n 0 = 1.
Proof. destruct n; auto. Qed.
Lemma binom_n_n n : binom n n = 1.
Proof. induction n; cbn; auto. rewrite IHn, binom_0; lia. Qed.
Lemma binom_pos n k : k <= n -> 0 < binom n k.
Proof. revert k; induction n; destruct k; cbn; intros; try lia. assert (0 < binom n k) by (apply IHn; lia). lia. Qed.
Lemma binom_absorb n k : S k * binom (S n) (S k) = S n * binom n k.
Proof.
  revert k; induction n as [|n IH]; intros k.
  - destruct k as [|[|k]]; reflexivity || (cbn; lia).
  - destruct k as [|k].
    + specialize (IH 0). rewrite binom_n_0 in *. change (binom (S (S n)) 1) with (binom (S n) 0 + binom (S n) 1).
      rewrite binom_n_0. lia.
    + change (binom (S (S n)) (S (S k))) with (binom (S n) (S k) + binom (S n) (S (S k))).
      rewrite Nat.mul_add_distr_l. rewrite IH.
      transitivity (S k * binom (S n) (S k) + binom (S n) (S k) + S n * binom n (S k)); [lia|]. rewrite IH.
      change (binom (S n) (S k)) with (binom n k + binom n (S k)). lia.
Qed.
Lemma fact_z_pos r : (0 < fact_z r)%Z.
Proof. induction r as [|r IH]; cbn [fact_z]; lia. Qed.
Lemma falling_binom n k : falling (Z.of_nat n) k = (fact_z k * Z.of_nat (binom n k))%Z.
Proof.
  revert n; induction k as [|k IH]; intros n; [cbn [falling fact_z]; rewrite binom_n_0; lia|].
  cbn [falling fact_z]. destruct n as [|n].
  - cbn. rewrite Z.mul_0_r. auto.
  - replace (Z.of_nat (S n) - 1)%Z with (Z.of_nat n) by lia. rewrite IH.
    assert (A := binom_absorb n k). apply (f_equal Z.of_nat) in A. rewrite !Nat2Z.inj_mul in A. transitivity (fact_z k * (Z.of_nat (S n) * Z.of_nat (binom n k)))%Z; [ring|]. rewrite <- A. ring.
Qed.
Lemma nCr_binom n r : nCr (Z.of_nat n) (Z.of_nat r) = Z.of_nat (binom n r).
Proof.
  unfold nCr. rewrite Nat2Z.id, falling_binom. rewrite Z.mul_comm. apply Z.div_mul. assert (H := fact_z_pos r). lia.
Qed.
Lemma argmin_loop_spec l : forall (pre : list Q) lowest li,
  nth_error pre li = Some lowest ->
  (forall j w, nth_error pre j = Some w -> (lowest <= w)%Q /\ (j < li -> (lowest < w)%Q)) ->
  exists v, let r := argmin_loop Qlt_b lowest li (length pre) l in
    nth_error (pre ++ l) r = Some v /\
    forall j w, nth_error (pre ++ l) j = Some w -> (v <= w)%Q /\ (j < r -> (v < w)%Q).
Proof.
  induction l as [|x l IH]; intros pre lowest li Hli Hpre; cbn [argmin_loop].
  - exists lowest. rewrite app_nil_r. auto.
  - assert (Hx : nth_error (pre ++ [x]) (length pre) = Some x).
    { rewrite nth_error_app2, Nat.sub_diag by lia; auto. }
    assert (Hsplit : forall j w, nth_error (pre ++ [x]) j = Some w -> (j < length pre /\ nth_error pre j = Some w) \/ (j = length pre /\ w = x)).
    { intros j w Hj. destruct (Nat.lt_ge_cases j (length pre)).
      - left. rewrite nth_error_app1 in Hj; auto.
      - right. rewrite nth_error_app2 in Hj by auto. destruct (j - length pre) as [|k] eqn:K; cbn in Hj; [injection Hj as <-; split; auto; lia|].
        destruct k; discriminate. }
    unfold Qlt_b. destruct (Qle_bool lowest x) eqn:C; cbn [negb].
    + apply Qle_bool_iff in C. destruct (IH (pre ++ [x]) lowest li) as (v & H1 & H2).
      * rewrite nth_error_app1; auto. apply nth_error_Some; congruence.
      * assert (li < length pre) by (apply nth_error_Some; congruence).
        intros j w Hj. apply Hsplit in Hj. destruct Hj as [[Hj1 Hj2]|[-> ->]]; auto. split; auto. lia.
      * exists v. rewrite app_length, Nat.add_1_r, <- app_assoc in *. auto.
    + assert (C' : (x < lowest)%Q). { apply Qnot_le_lt. intros G. apply Qle_bool_iff in G. congruence. }
      destruct (IH (pre ++ [x]) x (length pre)) as (v & H1 & H2); auto.
      * intros j w Hj. apply Hsplit in Hj. destruct Hj as [[Hj1 Hj2]|[-> ->]]; [|split; [apply Qle_refl|lia]].
        destruct (Hpre j w Hj2) as [G _]. assert ((x < w)%Q) by (eapply Qlt_le_trans; eauto). split; auto using Qlt_le_weak.
      * exists v. rewrite app_length, Nat.add_1_r, <- app_assoc in *. auto.
Qed.
Lemma argmin_spec l i : argmin Qlt_b l = Ok i ->
  exists v, nth_error l i = Some v /\ forall j w, nth_error l j = Some w -> (v <= w)%Q /\ (j < i -> (v < w)%Q).
Proof.
  destruct l as [|x l]; cbn [argmin]; [discriminate|]. intros [= <-].
  cbn [argmin_loop]. assert (Qlt_b x x = false) as -> by (unfold Qlt_b; rewrite (proj2 (Qle_bool_iff x x)) by apply Qle_refl; auto).
  destruct (argmin_loop_spec l [x] x 0) as (v & H1 & H2); auto.
  - intros [|j] w Hj; cbn in Hj; [|destruct j; discriminate]. injection Hj as <-. split; [apply Qle_refl|lia].
  - exists v; auto.
Qed.
Lemma argmin_empty : argmin Qlt_b [] = Err IndexError. Proof. reflexivity. Qed.
Lemma argmin_total (l : list Q) : l <> [] -> isOk (argmin Qlt_b l).
Proof. destruct l; [congruence|]. intros _. eexists; reflexivity. Qed.
Lemma i_replaced_spec {A} (a b : list A) x v :
  i_replaced (a ++ x :: b) (length a) (Some v) = a ++ v :: b /\ i_replaced (a ++ x :: b) (length a) None = a ++ b.
Proof.
  unfold i_replaced. rewrite firstn_app, firstn_all, Nat.sub_diag. cbn [firstn]. rewrite app_nil_r.
  assert (skipn (S (length a)) (a ++ x :: b) = b) as ->; auto.
  change (x :: b) with ([x] ++ b). rewrite app_assoc. rewrite skipn_app.
  rewrite skipn_all2 by (rewrite app_length; cbn; lia). rewrite app_length; cbn. rewrite Nat.add_1_r, Nat.sub_diag. auto.
Qed.

(** ** C20: the CatNap index *)
Lemma unique_In v vs : In v (unique vs) -> In v vs.
Proof. apply dedup_by_In. Qed.
Lemma unique_complete v vs : In v vs -> exists u, In u (unique vs) /\ uniq_eq u v = true.
Proof.
  intros H. destruct (dedup_by_complete uniq_eq uniq_eq_refl [] vs v H) as (u & [[]|Hu] & E). eauto.
Qed.
Lemma column_In fr f v : In v (column fr f) <-> exists rw, In rw (frows fr) /\ cell (fcols fr) f rw = Some v.
Proof.
  unfold column. rewrite in_flat_map. split; intros (rw & Hrw & H); exists rw; split; auto.
  - destruct (cell (fcols fr) f rw); [|contradiction]. destruct H as [->|[]]; auto.
  - rewrite H; cbn; auto.
Qed.
Definition map_of (x : frame) (c : cond) : list nat := labels (filter (cell_eq (fcols x) (cfeat c) (cval c)) (frows x)).
Definition is_index (cn : catnap) (x : frame) : Prop :=
  cn_conds cn = cn_possible_conds x /\ cn_maps cn = map (fun c => (c, map_of x c)) (cn_conds cn) /\ cn_all cn = labels (frows x).
Lemma cn_make_index fr cf cn : cn_make fr cf = Ok cn -> exists x, drop_col fr cf = Ok x /\ is_index cn x.
Proof.
  unfold cn_make. intros H. binv H. injection H as <-. exists v. split; auto. split; [|split]; cbn; auto.
  unfold drop_col in E. destruct (col_pos (fcols fr) cf); [|discriminate]. injection E as <-. cbn. unfold labels. rewrite map_map; auto.
Qed.
Lemma possible_In x c : In c (cn_possible_conds x) <->
  exists f v, In f (fcols x) /\ In v (unique (column x f)) /\ c = mkcond f v.
Proof.
  unfold cn_possible_conds. rewrite in_flat_map. split.
  - intros (f & Hf & H). apply in_map_iff in H. destruct H as (v & <- & Hv). eauto.
  - intros (f & v & Hf & Hv & ->). exists f; split; auto. apply in_map; auto.
Qed.
Lemma map_of_eq x c d : cond_eqb c d = true -> map_of x c = map_of x d.
Proof.
  unfold cond_eqb. rewrite andb_true_iff. intros [E1 E2]. unfold map_of. f_equal. apply filter_ext. intros.
  apply cell_eq_py_eq; auto.
Qed.
Lemma cell_eq_has_cond x c rw : distinct_cols (fcols x) -> In rw (frows x) -> cell_eq (fcols x) (cfeat c) (cval c) rw = true ->
  exists d, In d (cn_possible_conds x) /\ cond_eqb d c = true.
Proof.
  intros D Hrw H. unfold cell_eq in H. destruct (cell (fcols x) (cfeat c) rw) as [w|] eqn:E; [|discriminate].
  unfold cell in E. destruct (col_pos (fcols x) (cfeat c)) as [j|] eqn:J; [|discriminate].
  destruct (col_pos_spec _ _ _ J) as (f & Hf & Ef).
  assert (C : cell (fcols x) f rw = Some w).
  { unfold cell. rewrite (col_pos_py_eq _ f (cfeat c)) by auto. rewrite J; auto. }
  assert (In w (column x f)) as Hw by (apply column_In; eauto).
  destruct (unique_complete _ _ Hw) as (u & Hu & Eu).
  exists (mkcond f u). split; [apply possible_In; exists f, u; split; [eapply nth_error_In; eauto|auto]|].
  unfold cond_eqb; cbn. rewrite Ef. cbn. unfold uniq_eq in Eu. rewrite orb_true_iff, andb_true_iff in Eu.
  destruct Eu as [Eu|[_ Eu]].
  - eapply py_eq_trans; eauto.
  - destruct w; cbn in Eu; try discriminate; rewrite py_eq_nan_l in H; discriminate.
Qed.
Lemma cn_get_eq cn x c : is_index cn x -> distinct_cols (fcols x) -> cn_get cn c = map_of x c.
Proof.
  intros (I1 & I2 & I3) D. unfold cn_get. rewrite I2, I1.
  destruct (find _ _) as [p|] eqn:F.
  - apply find_some in F. destruct F as [Hin E]. apply in_rev in Hin. apply in_map_iff in Hin. destruct Hin as (d & <- & Hd). cbn in *.
    apply map_of_eq; auto.
  - unfold map_of. rewrite filter_none; auto. intros rw Hrw. destruct (cell_eq _ _ _ rw) eqn:E; auto. exfalso.
    destruct (cell_eq_has_cond x c rw D Hrw E) as (d & Hd & Ed).
    assert (G := find_none _ _ F (d, map_of x d)). cbn in G. rewrite G in Ed; [discriminate|].
    rewrite <- in_rev. apply in_map_iff; eauto.
Qed.
(** the row with label i satisfies the conditions *)
Definition lab_sat (x : frame) (cs : list cond) (i : nat) : bool :=
  existsb (fun rw => Nat.eqb (rlab rw) i && conds_sat (fcols x) cs rw) (frows x).
Lemma lab_sat_row x cs rw : NoDup (labels (frows x)) -> In rw (frows x) -> lab_sat x cs (rlab rw) = conds_sat (fcols x) cs rw.
Proof.
  intros D H. unfold lab_sat. apply eq_true_iff_eq. rewrite existsb_exists. split.
  - intros (y & Hy & E). rewrite andb_true_iff, Nat.eqb_eq in E. destruct E as [E1 E2].
    assert (y = rw) as -> by (apply (NoDup_map_inj rlab (frows x)); auto). auto.
  - intros E. exists rw. rewrite Nat.eqb_refl; auto.
Qed.
Lemma maps_lab_sat cn x cs i : is_index cn x -> distinct_cols (fcols x) -> NoDup (labels (frows x)) -> In i (labels (frows x)) ->
  forallb (fun s => nmem i s) (map (cn_get cn) cs) = lab_sat x cs i.
Proof.
  intros I D L Hi. apply in_map_iff in Hi. destruct Hi as (rw & <- & Hrw). rewrite lab_sat_row by auto.
  induction cs as [|c cs IH]; cbn [map forallb conds_sat]; auto. rewrite IH. unfold conds_sat. cbn [forallb]. f_equal.
  rewrite (cn_get_eq cn x) by auto. apply eq_true_iff_eq. rewrite nmem_In. unfold map_of, labels. rewrite in_map_iff. split.
  - intros (y & E & Hy). apply filter_In in Hy. destruct Hy as [Hy1 Hy2].
    assert (y = rw) as -> by (apply (NoDup_map_inj rlab (frows x)); auto). auto.
  - intros E. exists rw. split; auto. apply filter_In; auto.
Qed.
Lemma cn_rule_covers_eq cn x r S : is_index cn x -> distinct_cols (fcols x) -> NoDup (labels (frows x)) -> incl S (labels (frows x)) ->
  cn_rule_covers cn r S = filter (lab_sat x (conds r)) S.
Proof.
  intros I D L H. assert (I' := I). destruct I' as (_ & _ & I3). unfold cn_rule_covers. destruct (conds r) as [|c cs] eqn:E.
  - apply filter_ext_in. intros i Hi. rewrite I3. rewrite (proj2 (nmem_In i _)) by auto.
    specialize (H i Hi). apply in_map_iff in H. destruct H as (rw & <- & Hrw). rewrite lab_sat_row by auto. auto.
  - apply filter_ext_in. intros i Hi. rewrite (maps_lab_sat cn x); auto.
Qed.
Lemma cn_cond_covers_eq cn x c S : is_index cn x -> distinct_cols (fcols x) -> NoDup (labels (frows x)) -> incl S (labels (frows x)) ->
  cn_cond_covers cn c S = filter (lab_sat x [c]) S.
Proof.
  intros I D L H. unfold cn_cond_covers. apply filter_ext_in. intros i Hi. rewrite <- (maps_lab_sat cn x [c]); auto.
  cbn. rewrite andb_true_r; auto.
Qed.
Lemma cn_rs_covers_eq cn x rs S : is_index cn x -> distinct_cols (fcols x) -> NoDup (labels (frows x)) -> incl S (labels (frows x)) ->
  (rs_isuniversal rs = true -> S <> []) ->
  cn_rs_covers cn rs S = filter (fun i => existsb (fun r => lab_sat x (conds r) i) rs) S.
Proof.
  intros I D L H U. unfold cn_rs_covers. destruct (rs_isuniversal rs) eqn:E.
  - destruct S as [|s S0]; [exfalso; apply U; auto|]. symmetry. apply filter_all. intros i Hi. specialize (H i Hi).
    apply in_map_iff in H. destruct H as (rw & <- & Hrw). apply universal_iff in E. destruct E as (r & Hr & Er).
    apply existsb_exists. exists r; split; auto. rewrite lab_sat_row by auto. rewrite Er; auto.
  - destruct rs as [|r0 rs0] eqn:R; cbn [rs_isnull]; [cbn; symmetry; apply filter_none; auto|]. rewrite <- R.
    apply filter_ext_in. intros i Hi. clear -I D L H Hi. induction rs as [|r rs IH]; cbn; auto. rewrite IH. f_equal.
    apply maps_lab_sat; auto.
Qed.
Lemma lab_sat_iff x cs i : distinct_cols (fcols x) ->
  (lab_sat x cs i = true <-> exists rw, In rw (frows x) /\ rlab rw = i /\ sat_conds (fcols x) rw cs).
Proof.
  intros D. unfold lab_sat. rewrite existsb_exists. split; intros (rw & H); exists rw.
  - rewrite andb_true_iff, Nat.eqb_eq, conds_sat_iff in H by auto. tauto.
  - rewrite andb_true_iff, Nat.eqb_eq, conds_sat_iff by auto. tauto.
Qed.
Lemma remove_nth_length {A} (l : list A) j : j < length l -> length (remove_nth j l) = length l - 1.
Proof. revert j; induction l as [|a l IH]; intros [|j]; cbn; intros H; try lia. rewrite IH; lia. Qed.
Lemma remove_nth_nth {A} (l : list A) j i : nth_error (remove_nth j l) i = if i <? j then nth_error l i else nth_error l (S i).
Proof.
  revert j i; induction l as [|a l IH]; intros j i; cbn.
  - assert (remove_nth j (@nil A) = []) as -> by (destruct j; auto). destruct (i <? j); destruct i; auto.
  - destruct j as [|j]; cbn; [auto|]. destruct i as [|i]; cbn; auto. rewrite IH. reflexivity.
Qed.
Lemma drop_col_good fr cf x : good_frame fr -> drop_col fr cf = Ok x ->
  good_frame x /\ labels (frows x) = labels (frows fr) /\ ~ column_present x cf /\ (forall f, In f (fcols x) -> In f (fcols fr)).
Proof.
  intros [W D] H. unfold drop_col in H. destruct (col_pos (fcols fr) cf) as [j|] eqn:J; [|discriminate]. injection H as <-.
  destruct (col_pos_spec _ _ _ J) as (c & Hc & Ec). assert (j < length (fcols fr)) as Hj by (apply nth_error_Some; congruence).
  split; [split|split; [|split]]; cbn.
  - intros r Hr. apply in_map_iff in Hr. destruct Hr as (r0 & <- & Hr). cbn. rewrite !remove_nth_length; rewrite ?(W r0 Hr); auto.
  - intros i k a b Ha Hb E. rewrite remove_nth_nth in Ha, Hb.
    destruct (Nat.ltb_spec i j), (Nat.ltb_spec k j); assert (G := D _ _ _ _ Ha Hb E); lia.
  - unfold labels. rewrite map_map. auto.
  - intros (d & Hd & Ed). cbn in Hd. apply In_nth_error in Hd. destruct Hd as (i & Hi). rewrite remove_nth_nth in Hi.
    assert (py_eq d c = true) as Edc by (rewrite (py_eq_rewrite_r c cf d); auto).
    destruct (Nat.ltb_spec i j); assert (G := D _ _ _ _ Hi Hc Edc); lia.
  - intros f Hf. apply In_nth_error in Hf. destruct Hf as (i & Hi). rewrite remove_nth_nth in Hi.
    destruct (i <? j); eapply nth_error_In; eauto.
Qed.
Lemma index_setup fr cf x cn : good_frame fr -> distinct_labels fr -> drop_col fr cf = Ok x -> cn_make fr cf = Ok cn ->
  is_index cn x /\ good_frame x /\ NoDup (labels (frows x)) /\ labels (frows x) = labels (frows fr).
Proof.
  intros G L X C. destruct (cn_make_index _ _ _ C) as (x' & X' & I). rewrite X in X'. injection X' as <-.
  destruct (drop_col_good _ _ _ G X) as (Gx & EL & _). split; auto. split; auto. split; auto. rewrite EL; auto.
Qed.
Lemma cn_cond_exact fr cf x cn c S : good_frame fr -> distinct_labels fr ->
  drop_col fr cf = Ok x -> cn_make fr cf = Ok cn -> incl S (labels (frows fr)) ->
  picks (fun i => exists rw, In rw (frows x) /\ rlab rw = i /\ sat_cond (fcols x) rw c) S (cn_cond_covers cn c S).
Proof.
  intros G L X C H. destruct (index_setup _ _ _ _ G L X C) as (I & [W D] & L' & EL).
  rewrite (cn_cond_covers_eq cn x) by (auto; rewrite EL; auto). apply picks_filter. intros i _. rewrite lab_sat_iff by auto.
  split; intros (rw & H1 & H2 & H3); exists rw; split; auto; split; auto.
  - apply H3; cbn; auto.
  - intros d [<-|[]]; auto.
Qed.
Lemma cn_rule_exact fr cf x cn r S : good_frame fr -> distinct_labels fr ->
  drop_col fr cf = Ok x -> cn_make fr cf = Ok cn -> incl S (labels (frows fr)) ->
  picks (fun i => exists rw, In rw (frows x) /\ rlab rw = i /\ sat_rule (fcols x) rw r) S (cn_rule_covers cn r S).
Proof.
  intros G L X C H. destruct (index_setup _ _ _ _ G L X C) as (I & [W D] & L' & EL).
  rewrite (cn_rule_covers_eq cn x) by (auto; rewrite EL; auto). apply picks_filter. intros i _. apply lab_sat_iff; auto.
Qed.
Lemma cn_rs_exact fr cf x cn rs S : good_frame fr -> distinct_labels fr ->
  drop_col fr cf = Ok x -> cn_make fr cf = Ok cn -> incl S (labels (frows fr)) ->
  (S <> [] \/ forall r, In r rs -> conds r <> []) ->
  picks (fun i => exists rw, In rw (frows x) /\ rlab rw = i /\ sat_ruleset (fcols x) rw rs) S (cn_rs_covers cn rs S).
Proof.
  intros G L X C H U. destruct (index_setup _ _ _ _ G L X C) as (I & [W D] & L' & EL).
  rewrite (cn_rs_covers_eq cn x); auto.
  - apply picks_filter. intros i _. rewrite existsb_exists. split.
    + intros (r & Hr & E). apply lab_sat_iff in E; auto. destruct E as (rw & H1 & H2 & H3). exists rw; split; auto; split; auto. exists r; auto.
    + intros (rw & H1 & H2 & r & Hr & H3). exists r; split; auto. apply lab_sat_iff; auto. exists rw; auto.
  - rewrite EL; auto.
  - intros E. destruct U as [U|U]; auto. apply universal_iff in E. destruct E as (r & Hr & Er). exfalso; eapply U; eauto.
Qed.
Lemma set_minus_filter (p : nat -> bool) S : set_minus S (filter p S) = filter (fun i => negb (p i)) S.
Proof.
  unfold set_minus. apply filter_ext_in. intros i Hi. f_equal. apply eq_true_iff_eq. rewrite nmem_In, filter_In. tauto.
Qed.
Lemma cn_rm_covered fr cf x cn r pos neg p n :
  good_frame fr -> distinct_labels fr -> drop_col fr cf = Ok x -> cn_make fr cf = Ok cn ->
  incl pos (labels (frows fr)) -> incl neg (labels (frows fr)) ->
  rm_rule_covers_cn cn r pos neg = (p, n) ->
  picks (fun i => ~ exists rw, In rw (frows x) /\ rlab rw = i /\ sat_rule (fcols x) rw r) pos p /\
  picks (fun i => ~ exists rw, In rw (frows x) /\ rlab rw = i /\ sat_rule (fcols x) rw r) neg n.
Proof.
  intros G L X C Hp Hn E. destruct (index_setup _ _ _ _ G L X C) as (I & [W D] & L' & EL).
  unfold rm_rule_covers_cn in E. rewrite !(cn_rule_covers_eq cn x) in E by (auto; rewrite EL; auto). injection E as <- <-.
  rewrite !set_minus_filter. split; apply picks_filter; intros i _;
  rewrite negb_true_iff, <- not_true_iff_false, lab_sat_iff by auto; reflexivity.
Qed.
