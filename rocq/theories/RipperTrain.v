(** * RipperTrain.v : RIPPER's stages as instances of the generic ones *)
From Verif Require Export RipperFacts.
From Coq Require Import Lqa.
Open Scope nat_scope.

Lemma prune_rule_on_ext m m' i rs r : (forall s, m s = m' s) -> prune_rule_on m i rs r = prune_rule_on m' i rs r.
Proof.
  intros H. unfold prune_rule_on. destruct (rule_isempty r); auto. destruct (nth_error rs i); auto. destruct (negb _); auto.
  assert (K : forall n q o, prune_loop m r n q o = prune_loop m' r n q o).
  { induction n as [|n IH]; intros q o; [reflexivity|]. cbn [prune_loop]. rewrite H.
    destruct (m' _) as [[x|]|]; cbn [bind]; auto. destruct (Qle_bool q x); apply IH. }
  rewrite K. reflexivity.
Qed.

(** ** CatNap engine *)
Section CN.
Context (e : env) (h : hyper) (cn : catnap) (Eo : env_ok e) (P0 : (0 <= h_prune h)%Q) (P1 : (h_prune h <= 1)%Q).
Definition cn_split (t : nat) (l : list nat) := random_split e t (grow_size h) l.
Definition cn_prune (pp np : list nat) (g : rule) : res (option rule) :=
  if prune_off h then Ok (Some g)
  else prune_rule (fun r => ripper_grow_metric (length (gcov (lsat cn) r pp)) (length (gcov (lsat cn) r np))) g.
Definition cn_met (i : nat) (pp np : list nat) (r : rule) : res (option Q) :=
  accuracy_metric (length pp) (length np) (length (gcov (lsat cn) r pp)) (length (gcov (lsat cn) r np)).
Definition cn_exc (pos0 neg0 : list nat) (rs : list rule) := exceptions_cn cn rs pos0 neg0.
Lemma ripper_loop_cn_g pos0 neg0 fuel : forall t rs st diff pos neg, incl pos (cn_all cn) -> incl neg (cn_all cn) ->
  ripper_loop_cn fuel e h cn pos0 neg0 t rs st diff pos neg =
  grip (lsat cn) (cn_cands cn) cn_split h cn_prune (cn_exc pos0 neg0) (length (cn_conds cn)) fuel t rs st diff pos neg.
Proof.
  pose proof (cn_sp_ok e h cn Eo P0 P1) as OK.
  induction fuel as [|k IH]; intros t rs st diff pos neg Ip In_; [reflexivity|]. cbn [ripper_loop_cn grip].
  destruct (_ || _); auto. destruct (stop_early _ _ _ _ _ _ _); auto. unfold cn_split.
  destruct (random_split e t (grow_size h) pos) as [pg pp] eqn:S1. destruct (random_split e (S t) (grow_size h) neg) as [ng np] eqn:S2.
  pose proof (sp_perm _ _ _ OK _ _ _ _ Ip S1) as Q1. pose proof (sp_perm _ _ _ OK _ _ _ _ In_ S2) as Q2.
  destruct (perm_incl _ _ _ _ Q1 Ip) as [I1 I2]. destruct (perm_incl _ _ _ _ Q2 In_) as [I3 I4].
  destruct (length pg =? 0); auto.
  rewrite grow_rule_cn_g by auto. destruct (ggrow _ _ _ _ _ _ _ _) as [g|]; cbn [bind]; auto.
  destruct (rule_isempty g); auto.
  replace (if prune_off h then Ok (Some g) else
           prune_rule (fun r => ripper_grow_metric (length (cn_rule_covers cn r pp)) (length (cn_rule_covers cn r np))) g)
    with (cn_prune pp np g).
  2:{ unfold cn_prune. destruct (prune_off h); auto. apply prune_rule_ext. intros s. rewrite !cn_rule_covers_g by auto. reflexivity. }
  destruct (cn_prune pp np g) as [[s|]|]; cbn [bind]; auto.
  unfold cn_exc at 1. destruct (dl_update _ _ _ _ _ _) as [[st' diff']|]; cbn [bind]; auto.
  unfold rm_rule_covers_cn. rewrite !set_minus_gdrop by auto.
  apply IH; intros i I; apply filter_In in I; [apply Ip|apply In_]; tauto.
Qed.
Lemma optimize_loop_cn_g pos0 neg0 orig dl : forall todo t i new pos neg, incl pos (cn_all cn) -> incl neg (cn_all cn) ->
  optimize_loop_cn e h cn orig dl pos0 neg0 t i todo new pos neg =
  gopt (lsat cn) (cn_cands cn) cn_split h cn_met (total_bits (cn_exc pos0 neg0) (length (cn_conds cn))) orig dl t i todo new pos neg.
Proof.
  pose proof (cn_sp_ok e h cn Eo P0 P1) as OK.
  induction todo as [|r rest IH]; intros t i new pos neg Ip In_; [reflexivity|]. cbn [optimize_loop_cn gopt]. unfold cn_split.
  destruct (random_split e t (grow_size h) pos) as [pg pp] eqn:S1. destruct (random_split e (S t) (grow_size h) neg) as [ng np] eqn:S2.
  pose proof (sp_perm _ _ _ OK _ _ _ _ Ip S1) as Q1. pose proof (sp_perm _ _ _ OK _ _ _ _ In_ S2) as Q2.
  destruct (perm_incl _ _ _ _ Q1 Ip) as [I1 I2]. destruct (perm_incl _ _ _ _ Q2 In_) as [I3 I4].
  destruct (length pg =? 0); auto. destruct (stop_early_opt h new (length pos) (length neg)) as [[]|]; cbn [bind]; auto.
  rewrite !grow_rule_cn_g by auto.
  assert (ME : forall s, accuracy_metric (length pp) (length np) (length (cn_rule_covers cn s pp)) (length (cn_rule_covers cn s np)) = cn_met i pp np s).
  { intros s. unfold cn_met. rewrite !cn_rule_covers_g by auto. reflexivity. }
  destruct (ggrow (lsat cn) (S (length ng)) (cn_cands cn) pg ng None (h_min_rule_samples h) (Rule_ [])) as [g1|]; cbn [bind]; auto.
  rewrite (prune_rule_on_ext _ _ _ _ _ ME). destruct (prune_rule_on _ _ _ g1) as [p1|]; cbn [bind]; auto.
  destruct (ggrow (lsat cn) (S (length ng)) (cn_cands cn) pg ng None (h_min_rule_samples h) r) as [g2|]; cbn [bind]; auto.
  rewrite (prune_rule_on_ext _ _ _ _ _ ME). destruct (prune_rule_on _ _ _ g2) as [p2|]; cbn [bind]; auto.
  change (fun x => exceptions_cn cn x pos0 neg0) with (cn_exc pos0 neg0).
  destruct (if opt_neq p1 r then _ else _) as [d1|]; cbn [bind]; auto.
  destruct (if opt_neq p2 r then _ else _) as [d2|]; cbn [bind]; auto.
  destruct (choose_rule _ _ _ _ _ _ _ _) as [new'|]; cbn [bind]; auto.
  unfold rm_rule_covers_cn. rewrite !set_minus_gdrop by auto. destruct (_ =? 0); auto.
  apply IH; intros j J; apply filter_In in J; [apply Ip|apply In_]; tauto.
Qed.
Lemma cn_prune_any pp np r s : cn_prune pp np r = Ok (Some s) -> exists b, s = set_conds r b /\ Spec.prefix b (conds r) /\ (conds r <> [] -> b <> []).
Proof.
  unfold cn_prune. destruct (prune_off h); [|apply prune_rule_any]. intros H. injection H as <-.
  exists (conds r). rewrite set_conds_all. split; auto. split; [apply prefix_refl|auto].
Qed.
Lemma cn_prune_total pp np r : exists s, cn_prune pp np r = Ok (Some s).
Proof.
  unfold cn_prune. destruct (prune_off h); [eauto|]. destruct (conds r) as [|c t] eqn:C; [exists r; apply prune_rule_empty; auto|].
  destruct (prune_rule_spec (fun r => ripper_grow_metric (length (gcov (lsat cn) r pp)) (length (gcov (lsat cn) r np))) r
    (fun p => (zq (Z.of_nat (length (gcov (lsat cn) (set_conds r p) pp)) - Z.of_nat (length (gcov (lsat cn) (set_conds r p) np)) + 1) /
       qn (length (gcov (lsat cn) (set_conds r p) pp) + length (gcov (lsat cn) (set_conds r p) np) + 1))%Q)) as (b & B & _).
  - congruence.
  - reflexivity.
  - eauto.
Qed.
End CN.

(** ** DataFrame engine *)
Section DF.
Context (e : env) (h : hyper) (cols : list pyval).
Definition df_split (t : nat) (l : list row) := df_shuffled_split e t (grow_size h) l.
Definition df_prune (pp np : list row) (g : rule) : res (option rule) :=
  prune_rule (fun r => ripper_grow_metric (length (rcov cols r pp)) (length (rcov cols r np))) g.
Definition df_met (orig : list rule) (i : nat) (pp np : list row) (x : rule) : res (option Q) :=
  accuracy_metric (length pp) (length np) (length (rs_rcov cols (set_nth i x orig) pp)) (length (rs_rcov cols (set_nth i x orig) np)).
Definition df_exc (pos0 neg0 : list row) (rs : list rule) := exceptions_df cols rs pos0 neg0.
Definition df_dl (possible : list cond) (pos0 neg0 : list row) (rs : list rule) : res Q :=
  x <- best_subset (df_exc pos0 neg0) (length possible) rs ;; Ok (snd x).
Lemma ripper_loop_g possible pos0 neg0 fuel : forall t rs st diff pos neg, NoDup (labels pos) -> NoDup (labels neg) ->
  ripper_loop fuel e h cols possible pos0 neg0 t rs st diff pos neg =
  grip (rsat cols) (df_cands possible) df_split h df_prune (df_exc pos0 neg0) (length possible) fuel t rs st diff pos neg.
Proof.
  induction fuel as [|k IH]; intros t rs st diff pos neg Np Nn; [reflexivity|]. cbn [ripper_loop grip].
  destruct (_ || _); auto. destruct (stop_early _ _ _ _ _ _ _); auto. unfold df_split.
  destruct (df_shuffled_split e t (grow_size h) pos) as [pg pp]. destruct (df_shuffled_split e (S t) (grow_size h) neg) as [ng np].
  destruct (length pg =? 0); auto. rewrite grow_rule_g. destruct (ggrow _ _ _ _ _ _ _ _) as [g|]; cbn [bind]; auto.
  destruct (rule_isempty g); auto.
  fold (df_prune pp np g). destruct (df_prune pp np g) as [[s|]|]; cbn [bind]; auto.
  unfold df_exc at 1. destruct (dl_update _ _ _ _ _ _) as [[st' diff']|]; cbn [bind]; auto.
  rewrite !drop_gdrop by auto. apply IH; apply NoDup_map_filter; auto.
Qed.
Lemma optimize_loop_g possible pos0 neg0 orig dl : forall todo t i new pos neg, NoDup (labels pos) -> NoDup (labels neg) ->
  optimize_loop e h cols possible orig dl pos0 neg0 t i todo new pos neg =
  gopt (rsat cols) (df_cands possible) df_split h (df_met orig) (df_dl possible pos0 neg0) orig dl t i todo new pos neg.
Proof.
  induction todo as [|r rest IH]; intros t i new pos neg Np Nn; [reflexivity|]. cbn [optimize_loop gopt]. unfold df_split.
  destruct (df_shuffled_split e t (grow_size h) pos) as [pg pp]. destruct (df_shuffled_split e (S t) (grow_size h) neg) as [ng np].
  destruct (length pg =? 0); auto. destruct (stop_early_opt h new (length pos) (length neg)) as [[]|]; cbn [bind]; auto.
  rewrite !grow_rule_g. fold (df_met orig i pp np).
  destruct (ggrow (rsat cols) (S (length ng)) (df_cands possible) pg ng None (h_min_rule_samples h) (Rule_ [])) as [g1|]; cbn [bind]; auto.
  destruct (prune_rule_on _ _ _ g1) as [p1|]; cbn [bind]; auto.
  destruct (ggrow (rsat cols) (S (length ng)) (df_cands possible) pg ng None (h_min_rule_samples h) r) as [g2|]; cbn [bind]; auto.
  destruct (prune_rule_on _ _ _ g2) as [p2|]; cbn [bind]; auto.
  change (fun x => exceptions_df cols x pos0 neg0) with (df_exc pos0 neg0).
  fold (df_dl possible pos0 neg0 (i_replaced orig i p1)). fold (df_dl possible pos0 neg0 (i_replaced orig i p2)).
  destruct (if opt_neq p1 r then _ else _) as [d1|]; cbn [bind]; auto.
  destruct (if opt_neq p2 r then _ else _) as [d2|]; cbn [bind]; auto.
  destruct (choose_rule _ _ _ _ _ _ _ _) as [new'|]; cbn [bind]; auto.
  rewrite !drop_gdrop by auto. destruct (_ =? 0); auto. apply IH; apply NoDup_map_filter; auto.
Qed.
End DF.

(** ** Grown rules never use up the candidate conditions *)
Section Bound.
Context (x : frame) (cn : catnap) (G : good_frame x) (ND : NoDup (labels (frows x))) (IX : is_index cn x).
Lemma other_value d i j (cs : list cond) : In d (cn_conds cn) -> In i (labels (frows x)) -> In j (labels (frows x)) ->
  lsat cn d i = false -> lsat cn d j = true -> (forall c, In c cs -> lsat cn c j = true) ->
  exists c, In c (cn_conds cn) /\ ~ In c cs.
Proof.
  intros Id Ii Ij Li Lj Lc. destruct G as [W Dc]. pose proof IX as (I1 & _). rewrite I1 in *.
  apply possible_In in Id. destruct Id as (f & v & F & V & ->).
  apply in_map_iff in Ii. destruct Ii as (ri & <- & Ri). apply in_map_iff in Ij. destruct Ij as (rj & <- & Rj).
  rewrite <- (xsat_cn cn x), xsat_row in Li, Lj by (auto; apply in_map; auto). unfold rsat in Li, Lj. cbn [cfeat cval] in *.
  unfold cell_eq in Lj. destruct (cell (fcols x) f rj) as [vj|] eqn:Cj; [|discriminate].
  assert (CI : exists w, cell (fcols x) f ri = Some w).
  { unfold cell in *. destruct (col_pos (fcols x) f) as [p|] eqn:P; [|discriminate].
    destruct (nth_error (rcells ri) p) eqn:N; eauto. exfalso. apply nth_error_None in N. rewrite (W ri Ri) in N.
    destruct (col_pos_spec _ _ _ P) as (c & C1 & _). assert (p < length (fcols x)) by (apply nth_error_Some; congruence). lia. }
  destruct CI as (w & Ci). unfold cell_eq in Li. rewrite Ci in Li.
  assert (Hw : In w (column x f)) by (apply column_In; eauto). destruct (unique_complete _ _ Hw) as (u & Hu & Eu).
  exists (mkcond f u). split; [apply possible_In; eauto|]. intros Ic. specialize (Lc _ Ic).
  rewrite <- (xsat_cn cn x), xsat_row in Lc by (auto; apply in_map; auto). unfold rsat, cell_eq in Lc. cbn [cfeat cval] in Lc. rewrite Cj in Lc.
  assert (UV : py_eq u v = true) by (rewrite py_eq_sym in Lc; eapply py_eq_trans; eauto).
  unfold uniq_eq in Eu. rewrite Bool.orb_true_iff, Bool.andb_true_iff in Eu. destruct Eu as [Eu|[Eu _]].
  - rewrite py_eq_sym in Eu. rewrite (py_eq_trans _ _ _ Eu UV) in Li. discriminate.
  - destruct u; try (cbn in Eu; discriminate Eu). rewrite py_eq_nan_r in Lc. discriminate Lc.
Qed.

Context (pos0 neg0 : list nat).
Definition rinv (r : rule) : Prop :=
  incl (conds r) (cn_conds cn) /\ NoDup (conds r) /\ Nat.max (length (conds r)) 1 < length (cn_conds cn) /\ pos0 <> [] /\ neg0 <> [].
Lemma rinv_conds r s : conds r = conds s -> rinv r -> rinv s.
Proof. unfold rinv. intros ->. auto. Qed.
Lemma NoDup_app_l {A} (a b : list A) : NoDup (a ++ b) -> NoDup a.
Proof.
  induction a as [|x0 a IH]; intros H; [constructor|]. cbn in H. inversion H; subst. constructor; auto.
  intros I. apply H2. apply in_or_app; auto.
Qed.
Lemma rinv_prefix r b : rinv r -> Spec.prefix b (conds r) -> rinv (set_conds r b).
Proof.
  unfold rinv. cbn [conds set_conds]. intros (A & B & C & P) [s S]. rewrite S in *. rewrite app_length in C. split; [|split; [|split; [lia|auto]]].
  - intros c I. apply A. apply in_or_app; auto.
  - eapply NoDup_app_l; eauto.
Qed.
Definition dpos (l : list nat) : Prop := in_frame x l /\ incl l pos0.
Definition dneg (l : list nat) : Prop := in_frame x l /\ incl l neg0.
Lemma grow_rinv pg ng mc ms r g : dpos pg -> dneg ng -> pg <> [] -> (conds r = [] \/ rinv r) ->
  ggrow (lsat cn) (S (length ng)) (cn_cands cn) pg ng mc ms r = Ok g -> (conds g <> [] \/ rinv r) -> rinv g.
Proof.
  intros [Dp Dp'] [Dn Dn'] PG Hr H Hg. apply ggrow_spec in H. destruct H as (r1 & C & X). apply gexit_prefix in X. destruct X as (b & B).
  destruct (gchain_app _ _ _ _ _ _ _ _ C) as (ds & E1 & E2 & _ & E3).
  destruct ds as [|d a _] using rev_ind.
  - rewrite (E2 eq_refl) in B. destruct Hr as [Hr|Hr].
    + rewrite Hr in B. symmetry in B. apply app_eq_nil in B. destruct B as [B _]. destruct Hg as [Hg|Hg]; [congruence|].
      apply rinv_conds with r; auto. congruence.
    + apply rinv_conds with (set_conds r (conds g)); auto. apply rinv_prefix; auto. exists b; auto.
  - assert (Nr : NoDup (conds r) /\ incl (conds r) (cn_conds cn)).
    { destruct Hr as [->|(A1 & A2 & _)]; [split; [constructor|intros ? []]|auto]. }
    destruct Nr as [Nr Ir].
    assert (NA : forall q, Spec.prefix q (a ++ [d]) -> NoDup (conds r ++ q) /\ incl q (cn_conds cn)).
    { induction q as [|d' q IH] using rev_ind; intros [s S].
      - rewrite app_nil_r. split; [auto|intros ? []].
      - destruct IH as [I1 I2]; [exists ([d'] ++ s); rewrite S, <- app_assoc; auto|].
        specialize (E3 q d' s). rewrite S, <- app_assoc in E3. specialize (E3 eq_refl). destruct E3 as (F1 & _ & F2 & _).
        split.
        + rewrite app_assoc. apply Permutation_NoDup with (d' :: conds r ++ q); [apply Permutation_cons_append|]. constructor; auto.
          intros I. assert (gcov (lsat cn) (Rule_ (conds r ++ q ++ [d'])) ng = gcov (lsat cn) (Rule_ (conds r ++ q)) ng) as Z; [|rewrite Z in F2; lia].
          rewrite app_assoc, gcov_step. apply filter_all. intros i Ii. apply filter_In in Ii. destruct Ii as [_ Ii].
          unfold gsat in Ii. rewrite forallb_forall in Ii. apply Ii. exact I.
        + intros c I. apply in_app_iff in I. destruct I as [I|[<-|[]]]; auto. }
    destruct (NA (a ++ [d])) as [N1 N2]; [apply prefix_refl|].
    destruct (E3 a d [] eq_refl) as (F1 & F2 & F3 & _).
    (* a covered positive, an excluded negative *)
    destruct (gcov (lsat cn) (Rule_ (conds r ++ a ++ [d])) pg) as [|j l] eqn:GC; [congruence|].
    assert (J : In j (gcov (lsat cn) (Rule_ (conds r ++ a ++ [d])) pg)) by (rewrite GC; left; auto).
    apply filter_In in J. destruct J as [J1 J2]. unfold gsat in J2. cbn [conds Rule_] in J2. rewrite forallb_forall in J2.
    rewrite (app_assoc (conds r) a [d]), gcov_step in F3.
    assert (EX : exists i, In i (gcov (lsat cn) (Rule_ (conds r ++ a)) ng) /\ lsat cn d i = false).
    { clear -F3. induction (gcov (lsat cn) (Rule_ (conds r ++ a)) ng) as [|i l0 IH]; [cbn in F3; lia|]. cbn [filter] in F3.
      destruct (lsat cn d i) eqn:L; [|exists i; split; [left|]; auto]. destruct IH as (i' & ? & ?); [cbn in F3; lia|]. exists i'. split; auto. right; auto. }
    destruct EX as (i & I1 & I2). apply gcov_incl in I1.
    destruct (other_value d i j (conds r ++ a ++ [d])) as (c & C1 & C2); auto.
    { apply J2. apply in_or_app; right. apply in_or_app; right. left; auto. }
    assert (LE : length (c :: conds r ++ a ++ [d]) <= length (cn_conds cn)).
    { apply NoDup_incl_length; [constructor; auto|]. intros y [<-|Y]; auto. apply in_app_iff in Y. destruct Y; auto. }
    assert (R1 : rinv (Rule_ (conds r ++ a ++ [d]))).
    { split; [|split; [|split]].
      - intros y Y. cbn [conds Rule_] in Y. apply in_app_iff in Y. destruct Y; auto.
      - exact N1.
      - cbn [conds Rule_]. cbn [length] in LE. rewrite !app_length in *. cbn [length] in *. lia.
      - split; [intros Z; specialize (Dp' j J1); rewrite Z in Dp'; destruct Dp'|intros Z; specialize (Dn' i I1); rewrite Z in Dn'; destruct Dn']. }
    apply rinv_conds with (set_conds (Rule_ (conds r ++ a ++ [d])) (conds g)); auto. apply rinv_prefix; auto.
    exists b. cbn [conds Rule_]. rewrite <- B. auto.
Qed.
Lemma binom_pos n k : k <= n -> 0 < binom n k.
Proof.
  revert k. induction n as [|n IH]; intros [|k] H; cbn; try lia. specialize (IH k ltac:(lia)). lia.
Qed.
Lemma exception_bits_ok N p fp fn : fp <= p -> p + fn <= N -> isOk (exception_bits (Z.of_nat N) (Z.of_nat p) (Z.of_nat fp) (Z.of_nat fn)).
Proof.
  intros A B. unfold exception_bits. rewrite <- Nat2Z.inj_sub by lia. rewrite !nCr_binom.
  pose proof (binom_pos p fp A). pose proof (binom_pos (N - p) fn ltac:(lia)).
  destruct (_ <=? 0)%Z eqn:E1; [apply Z.leb_le in E1; lia|]. destruct (Z.of_nat (binom (N - p) fn) <=? 0)%Z eqn:E2; [apply Z.leb_le in E2; lia|].
  eexists. reflexivity.
Qed.
Lemma cn_rs_covers_le rs l : (rs_isuniversal rs = true -> l <> []) -> length (cn_rs_covers cn rs l) <= length l.
Proof.
  intros U. unfold cn_rs_covers. destruct (rs_isuniversal rs); [destruct l; [exfalso; apply U; auto|lia]|].
  destruct (rs_isnull rs); [cbn; lia|]. apply filter_length_le.
Qed.
Lemma exceptions_ok rs : (forall r, In r rs -> rinv r) -> isOk (cn_exc cn pos0 neg0 rs).
Proof.
  intros H. unfold cn_exc, exceptions_cn.
  assert (U : rs_isuniversal rs = true -> pos0 <> [] /\ neg0 <> []).
  { intros U. apply universal_iff in U. destruct U as (r & I & _). destruct (H r I) as (_ & _ & _ & ?). auto. }
  pose proof (cn_rs_covers_le rs pos0 (fun u => proj1 (U u))). pose proof (cn_rs_covers_le rs neg0 (fun u => proj2 (U u))).
  rewrite <- !Nat2Z.inj_add, <- Nat2Z.inj_sub by lia. apply exception_bits_ok; lia.
Qed.
End Bound.
