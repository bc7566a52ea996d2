(** * TallyAlgo.v : the training of RIPPER with cn_optimize=False carries out the algorithm of TallySpec *)
From Verif Require Export TallySpec RipperAlgo.
From Verif Require Import Prop_Irep Prop_Learn Prop_Ripper Prop_Mdl ClassFacts CalFacts.
From Coq Require Import Lqa Reals Qreals.
Open Scope nat_scope.

Lemma theory_sum_app n a b : theory_sum n (a ++ b) = (theory_sum n a + theory_sum n b)%R.
Proof. induction a as [|r a IH]; cbn [theory_sum app]; [Lra.lra|]. rewrite IH. Lra.lra. Qed.
Lemma rs_theory_bits n rs q : rs_theory n rs = Ok q -> bits_of q = theory_sum n rs.
Proof. intros H. destruct (rs_theory_real n rs (rs_theory_size _ _ _ H)) as (q' & Q & _ & B). rewrite H in Q. apply Ok_inj in Q. subst. auto. Qed.
Lemma exception_bits_value N p fp fn q : exception_bits N p fp fn = Ok q -> bits_of q = (log2 (IZR (nCr p fp)) + log2 (IZR (nCr (N - p) fn)))%R.
Proof.
  unfold exception_bits. destruct (_ || _) eqn:B; [discriminate|]. intros H. apply Ok_inj in H; subst. apply Bool.orb_false_elim in B. destruct B as [B1 B2].
  apply Z.leb_gt in B1, B2. set (a := nCr p fp) in *. set (b := nCr (N - p) fn) in *. apply IZR_lt in B1, B2.
  assert (E : Q2R (inject_Z (a * b * (a * b))) = ((IZR a * IZR b) * (IZR a * IZR b))%R) by (unfold Q2R; cbn [Qnum Qden inject_Z]; rewrite !mult_IZR; field).
  unfold bits_of. rewrite E. assert (M : (0 < IZR a * IZR b)%R) by (apply Rmult_lt_0_compat; auto). rewrite !log2_mult by auto. field.
Qed.
Lemma bits_eq a b : (a == b)%Q -> bits_of a = bits_of b.
Proof. intros H. unfold bits_of. rewrite (Qeq_eqR _ _ H). auto. Qed.

(** ** rows and labels *)
Section L.
Context (e : env) (h : hyper) (x : frame) (Eo : env_ok e) (P0 : (0 <= h_prune h)%Q) (P1 : (h_prune h <= 1)%Q) (Dc : distinct_cols (fcols x)) (ND : NoDup (labels (frows x))).
Let cols := fcols x.
Let cov := gcov (xsat x).
Let sub (l : list row) := incl l (frows x).
Lemma l_row c rw : In rw (frows x) -> xsat x c (rlab rw) = rsat cols c rw.
Proof. intros I. apply xsat_row; auto. Qed.
Lemma l_cov r l : sub l -> length (gcov (rsat cols) r l) = length (cov r (labels l)).
Proof. intros I. unfold cov, labels. rewrite (gcov_hom_len rlab (rsat cols) (xsat x) (fun rw => In rw (frows x))); auto. intros c i J. apply l_row; auto. Qed.
Lemma l_sat r rw : In rw (frows x) -> gsat (xsat x) r (rlab rw) = gsat (rsat cols) r rw.
Proof. intros I. apply (gsat_hom rlab (rsat cols) (xsat x) (fun rw => In rw (frows x))); auto. intros c i J. apply l_row; auto. Qed.
Lemma l_rem a l : sub l -> labels (grem (rsat cols) a l) = grem (xsat x) a (labels l).
Proof.
  intros I. unfold grem, labels. rewrite filter_map_comm. f_equal. apply filter_ext_in. intros rw J. f_equal.
  induction a as [|r a IH]; auto. cbn [existsb]. rewrite IH, l_sat; auto.
Qed.
Lemma l_remsub a l : sub l -> sub (grem (rsat cols) a l).
Proof. intros I rw J. apply filter_In in J. apply I; tauto. Qed.
Lemma l_picks a l : sub l -> picks (uncovered_label x a) (labels l) (labels (grem (rsat cols) a l)).
Proof.
  intros I. rewrite l_rem by auto. apply rem_picks; auto. intros i J. unfold labels in *. apply in_map_iff in J. destruct J as (rw & <- & J). apply in_map; auto.
Qed.
Lemma l_tally rs l : sub l -> length (rs_rcov cols rs l) = tally_of cov rs (labels l).
Proof.
  intros I. unfold rs_rcov, tally_of, rs_isuniversal.
  assert (U : existsb rule_isempty rs = existsb (fun r => length (conds r) =? 0) rs).
  { induction rs as [|r rs IH]; auto. cbn [existsb]. rewrite IH. f_equal. unfold rule_isempty. destruct (conds r); reflexivity. }
  rewrite U. destruct (existsb (fun r => length (conds r) =? 0) rs); [unfold labels; rewrite map_length; auto|]. clear U.
  assert (F : length (flat_map (fun r => rcov cols r l) rs) = list_sum (map (fun r => length (cov r (labels l))) rs)).
  { induction rs as [|r rs IH]; [reflexivity|]. cbn [flat_map map]. rewrite app_length, IH, rcov_gcov, l_cov by auto. reflexivity. }
  rewrite <- F. destruct rs; reflexivity.
Qed.
Lemma l_left rs l : NoDup (labels l) -> drop_labels l (labels (rs_rcov cols rs l)) = grem (rsat cols) rs l.
Proof.
  intros N. assert (K : forall r rw, row_sat cols r rw = gsat (rsat cols) r rw).
  { intros r rw. pose proof (rcov_gcov cols r [rw]) as Q. unfold rcov, gcov in Q. cbn [filter] in Q. destruct (row_sat cols r rw), (gsat (rsat cols) r rw); auto; discriminate. }
  unfold grem. apply drop_labels_covered; auto. intros rw. rewrite existsb_exists. unfold rs_rcov. destruct (rs_isuniversal rs) eqn:U.
  - unfold rs_isuniversal in U. apply existsb_exists in U. destruct U as (r & R & U). split; [|tauto]. intros I. split; auto. exists r. split; auto. unfold gsat, rule_isempty in *. destruct (conds r); [auto|discriminate].
  - destruct (rs_isnull rs) eqn:Z.
    + destruct rs; [|discriminate]. split; [intros []|intros (_ & r & [] & _)].
    + rewrite in_flat_map. split.
      * intros (r & R & J). unfold rcov in J. apply filter_In in J. split; [tauto|]. exists r. split; auto. rewrite <- K. tauto.
      * intros (I & r & R & J). exists r. split; auto. unfold rcov. apply filter_In. rewrite K. auto.
Qed.
Lemma l_split t l a b : sub l -> NoDup (labels l) -> df_split e h t l = (a, b) -> split_for e h (labels l) (labels a) (labels b) /\ incl a l /\ incl b l.
Proof.
  intros I N S. pose proof S as S0. unfold df_split, df_shuffled_split in S. destruct (random_split e t (grow_size h) (labels l)) as [i1 i2] eqn:R. injection S as <- <-.
  assert (G0 : (0 <= grow_size h)%Q) by (unfold grow_size; lra). assert (G1 : (grow_size h <= 1)%Q) by (unfold grow_size; lra).
  destruct (random_split_incl _ _ _ _ _ _ Eo G0 G1 R) as [J1 J2]. rewrite !labels_loc by auto. split; [apply random_split_spec in R; auto|].
  pose proof (df_sp_ok e h Eo P0 P1) as OK. apply (sp_perm _ _ _ OK _ _ _ _ N) in S0.
  split; intros rw J; apply (Permutation_in _ S0); apply in_or_app; auto.
Qed.
Lemma l_grow possible fuel pg ng mc ms base : sub pg -> sub ng ->
  ggrow (rsat cols) fuel (df_cands possible) pg ng mc ms base = ggrow (xsat x) fuel (fun _ => possible) (labels pg) (labels ng) mc ms base.
Proof.
  intros I J. rewrite (ggrow_ext (rsat cols) (df_cands possible) (fun _ => possible)).
  - unfold labels. symmetry. apply (ggrow_hom rlab (rsat cols) (xsat x) (fun rw => In rw (frows x))); auto. intros c i K. apply l_row; auto.
  - intros r. apply gsucc_df_cands. apply rsat_compat.
Qed.

(** ** bits *)
Section M.
Context (possible : list cond) (rp rn : list row) (Ip : incl rp (frows x)) (In_ : incl rn (frows x)) (Np : NoDup (labels rp)) (Nn : NoDup (labels rn)) (HA : (0 <= h_dl h)%Z).
Let pos := labels rp.
Let neg := labels rn.
Let n := length possible.
Let bits := tally_bits cov n pos neg.
Let exc := df_exc cols rp rn.
Lemma m_pos l q : exc l = Ok q -> (0 < q)%Q.
Proof. apply df_exc_pos. Qed.
Lemma m_exc rs q b : exc rs = Ok q -> (bits rs b <-> b = (theory_sum n rs + bits_of q)%R).
Proof.
  intros H. unfold exc, df_exc, exceptions_df in H. apply exception_bits_value in H. rewrite !l_tally in H by auto.
  unfold bits, tally_bits. rewrite H. unfold pos, neg. rewrite Nat2Z.inj_add.
  assert (Lp : length (labels rp) = length rp) by apply map_length. assert (Ln : length (labels rn) = length rn) by apply map_length. rewrite !Lp, !Ln. tauto.
Qed.
Lemma m_bits rs q b : total_bits exc n rs = Ok q -> (bits rs b <-> b = bits_of q).
Proof.
  intros H. unfold total_bits in H. binv H. rename E into A. binv H. rename E into B. apply Ok_inj in H. subst q.
  rewrite (m_exc _ _ b B), bits_mult, (rs_theory_bits _ _ _ A); [tauto|eapply rs_theory_pos; eauto|eapply m_pos; eauto].
Qed.
Lemma m_pdl init w q b : pdl exc n init w q -> (bits (init ++ w) b <-> b = (theory_sum n init + bits_of q)%R).
Proof.
  intros (t & c & T & C & Q). rewrite (m_exc _ _ b C), theory_sum_app, <- (rs_theory_bits _ _ _ T), (bits_eq _ _ Q), <- (bits_eq _ _ (Qred_correct (t * c))).
  rewrite (bits_mult t c (rs_theory_pos _ _ _ T) (m_pos _ _ C)), Rplus_assoc. tauto.
Qed.
Lemma m_over init a st diff : Allowance.inv exc n init a st diff -> (within_allowance diff (h_dl h) = false <-> too_long bits (h_dl h) init a).
Proof.
  intros I. rewrite (inv_over _ _ _ m_pos _ _ _ _ I HA). pose proof (inv_defined _ _ _ _ _ _ I) as DEF. split.
  - intros (w & d & m & [W (v & V & ->)] & D & M & LT). exists w, v, (theory_sum n init + bits_of d)%R, (theory_sum n init + bits_of m)%R. do 3 (split; [auto|]).
    split; [apply (m_pdl _ _ d); auto|]. split; [apply (m_pdl _ _ m); auto|]. pose proof (pdl_pos _ _ _ m_pos _ _ D) as D0. pose proof (pdl_pos _ _ _ m_pos _ _ M) as M0.
    rewrite Rplus_assoc. apply Rplus_lt_compat_l. rewrite Rplus_comm, <- bits_pow by auto. apply bits_lt; auto. apply Qmult_lt_0_compat; auto. apply pow4_pos.
  - intros (w & v & b & b' & -> & W & V & B & B' & LT).
    destruct (DEF (w ++ v)) as (d & D). { split; [destruct w; [congruence|discriminate]|exists []; rewrite app_nil_r; auto]. }
    destruct (DEF w) as (m & M). { split; eauto. }
    apply (m_pdl _ _ d) in B; auto. apply (m_pdl _ _ m) in B'; auto. subst b b'. exists w, d, m. split; [split; eauto|]. split; auto. split; auto.
    pose proof (pdl_pos _ _ _ m_pos _ _ D) as D0. pose proof (pdl_pos _ _ _ m_pos _ _ M) as M0.
    rewrite Rplus_assoc in LT. apply Rplus_lt_reg_l in LT. rewrite Rplus_comm, <- bits_pow in LT by auto. apply bits_lt in LT; auto. apply Qmult_lt_0_compat; auto. apply pow4_pos.
Qed.
Lemma m_build init : forall fuel t a st diff rs t', Allowance.inv exc n init a st diff ->
  grip (rsat cols) (df_cands possible) (df_split e h) h (df_prune cols) exc n fuel t (init ++ a) st diff (grem (rsat cols) a rp) (grem (rsat cols) a rn) = Ok (rs, t') ->
  exists new, rs = init ++ new /\ build e h x cov possible bits init pos neg a new.
Proof.
  induction fuel as [|k IH]; intros t a st diff rs t' I H; [discriminate|]. cbn [grip] in H.
  pose proof (m_over _ _ _ _ I) as OV. pose proof (l_picks a rp Ip) as RP. pose proof (l_picks a rn In_) as RN.
  pose proof (l_remsub a rp Ip) as SP. pose proof (l_remsub a rn In_) as SN.
  assert (DP : NoDup (labels (grem (rsat cols) a rp))) by (apply NoDup_map_filter; auto). assert (DN : NoDup (labels (grem (rsat cols) a rn))) by (apply NoDup_map_filter; auto).
  destruct (_ || _) eqn:B.
  { injection H as <- <-. exists a. split; auto. apply Bool.orb_true_iff in B. destruct B as [B|B].
    - apply build_covered. apply Nat.eqb_eq in B. destruct (grem (rsat cols) a rp); [auto|discriminate].
    - apply build_too_long. apply OV. apply Bool.negb_true_iff. auto. }
  apply Bool.orb_false_elim in B. destruct B as [B1 B2]. apply Bool.negb_false_iff in B2.
  assert (NE : labels (grem (rsat cols) a rp) <> []) by (intros Q; destruct (grem (rsat cols) a rp); discriminate).
  assert (LP : length (labels (grem (rsat cols) a rp)) = length (grem (rsat cols) a rp)) by apply map_length.
  assert (LN : length (labels (grem (rsat cols) a rn)) = length (grem (rsat cols) a rn)) by apply map_length.
  destruct (stop_early _ _ _ _ _ _ _) eqn:SE.
  { injection H as <- <-. exists a. split; auto. eapply build_limit; eauto. rewrite LP, LN. apply stop_early_iff. auto. }
  destruct (df_split e h t (grem (rsat cols) a rp)) as [pg pp] eqn:S1. destruct (df_split e h (S t) (grem (rsat cols) a rn)) as [ng np] eqn:S2.
  destruct (l_split _ _ _ _ SP DP S1) as (F1 & I1 & I2). destruct (l_split _ _ _ _ SN DN S2) as (F2 & J1 & J2).
  assert (Wpg : sub pg) by (intros i Q; apply SP; auto). assert (Wpp : sub pp) by (intros i Q; apply SP; auto).
  assert (Wng : sub ng) by (intros i Q; apply SN; auto). assert (Wnp : sub np) by (intros i Q; apply SN; auto).
  destruct (length pg =? 0) eqn:Z0.
  { injection H as <- <-. exists a. split; auto. eapply build_nothing; eauto. left. apply Nat.eqb_eq in Z0. destruct pg; [auto|discriminate]. }
  binv H. rename v into g. rename E into G. rewrite l_grow in G by auto. apply (grow_greedy (xsat x) h possible) in G. destruct (rule_isempty g) eqn:GE.
  { injection H as <- <-. exists a. split; auto. eapply build_nothing; eauto. right. unfold rule_isempty in GE. destruct (conds g); [exact G|discriminate]. }
  assert (GN : conds g <> []) by (unfold rule_isempty in GE; destruct (conds g); discriminate).
  binv H. rename E into PR. destruct v as [s|]; [|discriminate]. binv H. rename E into U. destruct v as [st' diff'].
  rewrite !gdrop_rem in H. unfold rs_add in H, U. rewrite <- app_assoc in H, U.
  destruct (IH _ _ _ _ _ _ (inv_update _ _ _ _ _ _ _ _ _ I U) H) as (new & -> & X). exists new. split; auto.
  eapply build_add with (pg := labels pg) (pp := labels pp) (ng := labels ng) (np := labels np); eauto.
  - intros Q. apply OV in Q. congruence.
  - rewrite LP, LN. apply stop_no. auto.
  - intros Q. destruct pg; discriminate.
  - apply worth_ok; auto. unfold df_prune in PR. rewrite <- PR. apply IrepFacts.prune_rule_ext. intros r. rewrite !rcov_gcov, !l_cov by auto. reflexivity.
Qed.
Lemma m_grow init t rs t' : ripper_grow e h cols possible t init rp rn = Ok (rs, t') ->
  exists new, rs = init ++ new /\ build e h x cov possible bits init pos neg [] new.
Proof.
  intros H. unfold ripper_grow in H. rewrite ripper_loop_g in H by auto.
  eapply (m_build init _ t [] None 1); [left; auto|]. rewrite app_nil_r, !grem_nil. exact H.
Qed.
Lemma m_kept rs kept q : best_subset exc n rs = Ok (kept, q) -> kept_by_length bits rs kept /\ bits kept (bits_of q) /\ (0 < q)%Q.
Proof.
  intros H. split.
  - pose proof H as H0. apply C37_subset_exact in H; [|intros; eapply m_pos; eauto]. destruct H as (idx & P & M). exists idx. split; auto.
    assert (K : forall i, 0 < i -> i <= length rs -> exists d, total_bits exc n (firstn i rs) = Ok d).
    { unfold best_subset in H0. binv H0. exact (subset_totals _ _ _ _ _ _ _ E eq_refl). }
    revert P. apply picks_ext. intros i I. apply in_seq in I. unfold worth_keeping. split.
    + intros [->|(d & d' & D & D' & L)]; auto. right. exists (bits_of d), (bits_of d'). split; [apply (m_bits _ d); auto|]. split; [apply (m_bits _ d'); auto|auto].
    + intros [->|(b & b' & B & B' & L)]; auto. destruct i as [|i]; auto. right. destruct (K (S i)) as (d & D); [lia|lia|]. destruct (K (S (S i))) as (d' & D'); [lia|lia|].
      apply (m_bits _ d) in B; auto. apply (m_bits _ d') in B'; auto. subst b b'. eauto.
  - apply best_subset_run in H. destruct H as (_ & H & _). split; [apply (m_bits _ q); auto|]. eapply total_pos; [intros; eapply m_pos; eauto|eauto].
Qed.
Lemma m_dl rs d : df_dl cols possible rp rn rs = Ok d -> kept_bits bits rs (bits_of d) /\ (0 < d)%Q.
Proof.
  unfold df_dl. intros H. binv H. rename E into B. destruct v as [kept q]. apply Ok_inj in H. cbn [snd] in H. subst d. apply m_kept in B. destruct B as (A & B & C). split; auto. exists kept. auto.
Qed.

(** ** the passes *)
Lemma tally_conds a b l : map conds a = map conds b -> tally_of cov a l = tally_of cov b l.
Proof.
  intros E. unfold tally_of.
  assert (X : existsb (fun r => length (conds r) =? 0) a = existsb (fun r => length (conds r) =? 0) b).
  { revert b E. induction a as [|r a IH]; intros [|s b] E; try discriminate; auto. injection E as E1 E2. cbn [existsb]. rewrite E1, (IH b E2). auto. }
  rewrite X. destruct (existsb _ b); auto. clear X. revert b E. induction a as [|r a IH]; intros [|s b] E; try discriminate; auto. injection E as E1 E2.
  cbn [map list_sum fold_right]. unfold list_sum in IH. rewrite (IH b E2). f_equal. unfold cov. rewrite (gcov_conds (xsat x) r s); auto.
Qed.
Lemma m_pruned i orig pp np g y : i < length orig -> sub pp -> sub np -> pp <> [] ->
  prune_rule_on (df_met cols orig i pp np) i (i_replaced orig i (Some g)) g = Ok y ->
  exists s, y = Some s /\ pruned_in cov orig i (labels pp) (labels np) (conds g) (conds s).
Proof.
  intros I Wp Wn NE H. destruct (conds g) as [|c0 t0] eqn:C.
  { unfold prune_rule_on, rule_isempty in H. rewrite C in H. injection H as <-. exists g. split; auto. left. auto. }
  assert (CN : conds g <> []) by (rewrite C; discriminate). rewrite <- C in *. clear C c0 t0.
  set (v := value_in cov orig i (labels pp) (labels np)).
  assert (V : forall p, df_met cols orig i pp np (set_conds g p) = Ok (Some (v p))).
  { intros p. unfold df_met, accuracy_metric. rewrite !l_tally by auto. destruct (length pp + length np =? 0) eqn:Z; [destruct pp; [congruence|discriminate]|].
    unfold v, value_in, zq. assert (Lp : length (labels pp) = length pp) by apply map_length. assert (Ln : length (labels np) = length np) by apply map_length. rewrite Lp, Ln.
    rewrite set_nth_slot by auto. rewrite !(tally_conds (with_slot orig i (set_conds g p)) (with_slot orig i (Rule_ p))); [reflexivity| |];
      unfold with_slot; rewrite !map_app; reflexivity. }
  destruct (prune_rule_on_spec (df_met cols orig i pp np) i (i_replaced orig i (Some g)) g v) as (B & B'); auto.
  { unfold i_replaced. rewrite nth_error_app2; rewrite firstn_length_le by lia; [|lia]. rewrite Nat.sub_diag. reflexivity. }
  assert (DEC : (exists p, Spec.prefix p (conds g) /\ p <> [] /\ (0 <= v p)%Q) \/ (forall p, Spec.prefix p (conds g) -> p <> [] -> (v p < 0)%Q)).
  { assert (K : forall k, (exists p, Spec.prefix p (conds g) /\ p <> [] /\ (0 <= v p)%Q) \/ (forall p, Spec.prefix p (conds g) -> length p <= k -> p <> [] -> (v p < 0)%Q)).
    { induction k as [|k [IH|IH]]; [right; intros p _ L N; destruct p; [congruence|cbn in L; lia]|left; auto|].
      destruct (Qlt_le_dec (v (firstn (S k) (conds g))) 0) as [D|D].
      - right. intros p Hp L N. destruct (Nat.eq_dec (length p) (S k)) as [Q|Q]; [|apply IH; auto; lia].
        destruct Hp as (t & E). rewrite E in D. rewrite <- Q, firstn_app, Nat.sub_diag, firstn_all in D. cbn [firstn] in D. rewrite app_nil_r in D. auto.
      - left. exists (firstn (S k) (conds g)). split; [exists (skipn (S k) (conds g)); symmetry; apply firstn_skipn|]. split; auto. destruct (conds g); [congruence|discriminate]. }
    destruct (K (length (conds g))) as [A|A]; auto. right. intros p Hp N. apply A; auto. destruct Hp as (t & E). rewrite E, app_length. lia. }
  destruct DEC as [D|D].
  - destruct (B D) as (b & Q & X). rewrite H in Q. apply Ok_inj in Q. subst y. eexists. split; [reflexivity|]. right. cbn [conds set_conds]. exact X.
  - rewrite (B' D) in H. discriminate.
Qed.
Lemma m_stop now a b v : stop_early_opt h (map Some now) a b = Ok v -> (v = true <-> ruleset_limit h now (a + b)).
Proof.
  intros H. rewrite <- stop_early_iff. unfold stop_early_opt in H. rewrite map_length in H. unfold stop_early in *. destruct (ge_lim (length now) (h_max_rules h)) eqn:GL.
  - apply Ok_inj in H. subst v. cbn [orb]. tauto.
  - destruct (h_max_total_conds h) as [mt|] eqn:MT.
    + rewrite force_map in H. cbn [bind] in H. apply Ok_inj in H. subst v. tauto.
    + apply Ok_inj in H. subst v. cbn [ge_lim orb] in *. tauto.
Qed.
Context (PL : (0 < h_prune h)%Q).
Lemma m_off : prune_off h = false.
Proof. apply prune_on_iff. intros Q. rewrite Q in PL. discriminate. Qed.
Lemma m_pass orig q0 : (0 < q0)%Q -> forall todo t i now pos1 neg1 new' t' pre,
  gopt (rsat cols) (df_cands possible) (df_split e h) h (df_met cols orig) (df_dl cols possible rp rn) orig q0 t i todo (map Some now) pos1 neg1 = Ok (new', t') ->
  orig = pre ++ todo -> length pre = i -> length now = length orig -> pos1 = grem (rsat cols) pre rp -> neg1 = grem (rsat cols) pre rn ->
  exists fin, new' = map Some fin /\ tally_pass e h x cov possible bits (bits_of q0) orig pos neg i now fin.
Proof.
  intros Q0. induction todo as [|r rest IH]; intros t i now pos1 neg1 new' t' pre H O Li Ln Ep En.
  { injection H as <- <-. exists now. split; auto. rewrite app_nil_r in O. subst pre i. apply tally_end. }
  assert (Il : i < length orig) by (rewrite O, app_length; cbn; lia).
  assert (Fi : firstn i orig = pre) by (rewrite O, <- Li, firstn_app, Nat.sub_diag, firstn_all; cbn; apply app_nil_r).
  assert (Ni : nth_error orig i = Some r) by (rewrite O, nth_error_app2, <- Li, Nat.sub_diag by lia; auto).
  pose proof (l_picks pre rp Ip) as RP. pose proof (l_picks pre rn In_) as RN. rewrite <- Ep in RP. rewrite <- En in RN.
  assert (SP : sub pos1) by (rewrite Ep; apply l_remsub; auto). assert (SN : sub neg1) by (rewrite En; apply l_remsub; auto).
  assert (DP : NoDup (labels pos1)) by (rewrite Ep; apply NoDup_map_filter; auto). assert (DN : NoDup (labels neg1)) by (rewrite En; apply NoDup_map_filter; auto).
  assert (LP : length (labels pos1) = length pos1) by apply map_length. assert (LN : length (labels neg1) = length neg1) by apply map_length.
  cbn [gopt] in H. destruct (df_split e h t pos1) as [pg pp] eqn:S1. destruct (df_split e h (S t) neg1) as [ng np] eqn:S2.
  destruct (l_split _ _ _ _ SP DP S1) as (F1 & I1 & I2). destruct (l_split _ _ _ _ SN DN S2) as (F2 & J1 & J2).
  assert (Wpg : sub pg) by (intros j Q; apply SP; auto). assert (Wpp : sub pp) by (intros j Q; apply SP; auto).
  assert (Wng : sub ng) by (intros j Q; apply SN; auto). assert (Wnp : sub np) by (intros j Q; apply SN; auto).
  destruct (length pg =? 0) eqn:Z0.
  { injection H as <- <-. exists now. split; auto. apply Nat.eqb_eq in Z0. destruct pg; [|discriminate]. eapply tally_small; [rewrite Fi; exact RP|exact F1]. }
  assert (PG : pg <> []) by (intros ->; discriminate).
  binv H. rename v into stp, E into SE. apply m_stop in SE. destruct stp.
  { injection H as <- <-. exists now. split; auto. eapply tally_limit; [rewrite Fi; exact RP|rewrite Fi; exact RN|rewrite LP, LN; apply SE; auto]. }
  assert (PP : pp <> []).
  { pose proof (df_sp_ok e h Eo P0 P1) as OK. refine (sp_on _ _ _ OK _ _ _ _ DP m_off _ S1). intros Z. rewrite Z in I1. destruct pg as [|z pg]; [congruence|]. destruct (I1 z); cbn; auto. }
  binv H. rename v into g1, E into G1. binv H. rename v into p1, E into Q1.
  binv H. rename v into g2, E into G2. binv H. rename v into p2, E into Q2.
  binv H. rename E into D1. rename v into d1. binv H. rename E into D2. rename v into d2. binv H. rename v into new1, E into CH.
  destruct (m_pruned _ _ _ _ _ _ Il Wpp Wnp PP Q1) as (s1 & -> & U1). destruct (m_pruned _ _ _ _ _ _ Il Wpp Wnp PP Q2) as (s2 & -> & U2).
  apply choose_exact in CH. destruct CH as (best & CH & EN).
  assert (EB : exists b, best = Some b) by (destruct CH as [[-> _]|[[-> _]|[-> _]]]; eauto). destruct EB as (b & ->).
  rewrite opt_some_in in EN.
  assert (EN' : new1 = map Some (with_slot now i (if existsb (fun s => rule_eqb s b) now then r else b))).
  { rewrite <- set_nth_slot by lia. rewrite <- set_nth_map, EN. f_equal. destruct (existsb _ now); auto. }
  assert (GG : forall base g, ggrow (rsat cols) (S (length ng)) (df_cands possible) pg ng None (h_min_rule_samples h) base = Ok g ->
    greedy (without_max_conds h) cov possible (labels pg) (labels ng) (conds base) (conds g)).
  { intros base g Gg. rewrite l_grow in Gg by auto. apply ggrow_spec in Gg. destruct Gg as (r1 & CC & X).
    apply (gexit_greedy (xsat x) (without_max_conds h) possible) in X. exact (chain_greedy (xsat x) (without_max_conds h) possible _ _ _ _ _ CC X). }
  assert (CO : forall o d, (if opt_neq (Some o) r then df_dl cols possible rp rn (i_replaced orig i (Some o)) else Ok q0) = Ok d ->
    slot_cost (kept_bits bits) orig i r (bits_of q0) o (bits_of d) /\ (0 < d)%Q).
  { intros o d. unfold opt_neq, slot_cost. destruct (rule_eqb o r); cbn [negb]; intros K.
    - apply Ok_inj in K. subst d. auto.
    - apply m_dl in K. destruct K as [K1 K2]. split; auto. }
  destruct (CO _ _ D1) as [K1 O1]. destruct (CO _ _ D2) as [K2 O2].
  assert (CB : cheapest r s1 s2 (bits_of q0) (bits_of d1) (bits_of d2) b).
  { destruct CH as [(A1 & A2 & A3)|[(A1 & A2 & A3)|(A1 & A2 & A3)]]; injection A1 as ->.
    * left. split; auto. split; apply bits_le; auto.
    * right. left. split; auto. split; [apply bits_lt|apply bits_le]; auto.
    * right. right. split; auto. split; apply bits_lt; auto. }
  assert (STEP : forall fin, tally_pass e h x cov possible bits (bits_of q0) orig pos neg (S i) (with_slot now i (if existsb (fun s => rule_eqb s b) now then r else b)) fin ->
    tally_pass e h x cov possible bits (bits_of q0) orig pos neg i now fin).
  { intros fin X. eapply (tally_slot e h x cov possible bits (bits_of q0) orig pos neg i now fin r (labels pos1) (labels neg1) (labels pg) (labels pp) (labels ng) (labels np) (conds g1) (conds g2) s1 s2 (bits_of d1) (bits_of d2) b); auto.
    - rewrite Fi; auto.
    - rewrite Fi; auto.
    - rewrite LP, LN. intros Q. apply SE in Q. discriminate.
    - intros Q. destruct pg; [congruence|discriminate].
    - apply (GG (Rule_ [])); auto. }
  assert (Fi' : firstn (S i) orig = pre ++ [r]).
  { rewrite O, <- Li, firstn_app. replace (S (length pre) - length pre) with 1 by lia. rewrite firstn_all2 by lia. reflexivity. }
  destruct (length (gdrop (rsat cols) r pos1) =? 0) eqn:Z1.
  - injection H as <- <-. eexists. split; [exact EN'|]. apply STEP. apply tally_covered. rewrite Fi'. rewrite Ep, gdrop_rem in Z1. pose proof (l_picks (pre ++ [r]) rp Ip) as R1.
    apply Nat.eqb_eq in Z1. destruct (grem (rsat cols) (pre ++ [r]) rp); [exact R1|discriminate].
  - rewrite EN' in H. destruct (IH _ _ _ _ _ _ _ (pre ++ [r]) H) as (fin & E1 & E2).
    + rewrite <- app_assoc. exact O.
    + rewrite app_length. cbn. lia.
    + rewrite <- set_nth_slot by lia. rewrite set_nth_length. auto.
    + rewrite Ep. apply gdrop_rem.
    + rewrite En. apply gdrop_rem.
    + exists fin. split; auto.
Qed.
Lemma m_one t rs rs' t' : optimize e h cols possible t rs rp rn = Ok (rs', t') -> one_tally_pass e h x cov possible bits pos neg rs rs'.
Proof.
  intros H. unfold optimize in H. binv H. destruct v as [kept q0]. rename E into B. binv H. destruct v as [new t1]. rename E into G. binv H. rename E into F. injection H as <- <-.
  rewrite optimize_loop_g in G by auto.
  destruct (m_kept _ _ _ B) as (K1 & K2 & Q0). exists (bits_of q0). split; [exists kept; auto|].
  destruct (m_pass rs q0 Q0 rs t 0 rs rp rn new t1 [] G) as (fin & -> & P); auto; try (symmetry; apply grem_nil).
  rewrite force_map in F. apply Ok_inj in F. subst fin. exact P.
Qed.
Lemma m_passes k : forall t rs rs' t', optimize_iter (fun t r => optimize e h cols possible t r rp rn) k t rs = Ok (rs', t') ->
  passes (one_tally_pass e h x cov possible bits pos neg) k rs rs'.
Proof.
  induction k as [|k IH]; intros t rs rs' t' H; cbn [optimize_iter] in H.
  { injection H as <- <-. constructor. }
  binv H. destruct v as [new t1]. apply m_one in E. rename E into O.
  destruct (negb (k =? 0) && rs_eqb rs new) eqn:Q.
  - injection H as <- <-. apply Bool.andb_true_iff in Q. destruct Q as [Q1 Q2]. destruct k as [|k]; [discriminate|]. eapply passes_settled; eauto. apply equal_iff; auto.
  - apply IH in H. eapply passes_go_on; [exact O| |apply H]. apply Bool.andb_false_iff in Q. destruct Q as [Q|Q].
    + left. apply Bool.negb_false_iff, Nat.eqb_eq in Q. auto.
    + right. intros X. apply equal_iff in X. congruence.
Qed.
End M.
End L.

Section C.
Context {e h df cf pc x p n p' n'} (ST : setting e h df cf pc x p n p' n').
Lemma cand_false (y z : frame) old : fcols y = fcols x -> fcols z = fcols x -> incl (frows y) (frows x) -> incl (frows z) (frows x) ->
  candidates false x (labels (frows y)) (labels (frows z)) old (update_possible_conds (set_order e) old y z).
Proof.
  intros R1 R4 R2 R5. unfold candidates, update_possible_conds. eexists. split; [reflexivity|]. intros c. rewrite (listed_conds (fun f => set_order e (shared_values f y z))). rewrite R1.
  pose proof (s_env _ _ _ _ _ _ _ _ _ _ ST) as Eo.
  assert (K : (exists v, In v (set_order e (shared_values (cfeat c) y z)) /\ py_eq v (cval c) = true) <->
    (exists v, In v (column y (cfeat c)) /\ py_eq v (cval c) = true) /\ (exists v, In v (column z (cfeat c)) /\ py_eq v (cval c) = true)).
  { split.
    - intros (v & I & Q). apply (Permutation_in _ (ok_set e Eo _)) in I. unfold shared_values in I. apply filter_In in I. destruct I as [I J].
      apply existsb_exists in J. destruct J as (w & J & W). split; [exists v; split; auto; apply unique_In; auto|].
      exists w. split; [apply unique_In; auto|]. eapply py_eq_trans; eauto.
    - intros [A B]. apply (proj2 (unique_equal _ _)) in A, B. destruct A as (v & I & Q). destruct B as (w & J & W). exists v. split; auto.
      apply (Permutation_in _ (Permutation_sym (ok_set e Eo _))). unfold shared_values. apply filter_In. split; auto. apply existsb_exists. exists w. split; auto.
      eapply py_eq_trans; [exact W|]. rewrite py_eq_sym; auto. }
  split.
  - intros [F H]. apply K in H. destruct H as [A B]. split; [apply (occurs_column ST y _ c R1 R2 eq_refl F)|apply (occurs_column ST z _ c R4 R5 eq_refl F)]; auto.
  - intros [A B]. pose proof (proj1 A) as F. split; auto. apply K. split; [apply (occurs_column ST y _ c R1 R2 eq_refl F)|apply (occurs_column ST z _ c R4 R5 eq_refl F)]; auto.
Qed.
Lemma ripper_train_tally init rs : (0 <= h_dl h)%Z -> (0 < h_prune h)%Q -> ripper_train e h false df cf pc init = Ok rs ->
  tally_run e h x (gcov (xsat x)) (old_possible init) (rs_rules init) (labels (frows p)) (labels (frows n)) (rs_rules rs).
Proof.
  intros HA PL H. destruct (ripper_train_df_stages ST _ _ H) as (rs1 & t1 & rs2 & t2 & rs3 & poss3 & t3 & rs4 & q & S1 & S2 & S3 & S4 & ->). cbn [rs_rules Ruleset_].
  set (poss := cand_conds e false x (old_possible init) p' n') in *.
  destruct (st_rows ST) as [(R1 & R2 & R3) (R4 & R5 & R6)]. destruct (st_nodup' ST) as [N1 N2]. destruct (st_xgood ST) as ([_ Dc] & _ & ND & _).
  pose proof (s_env _ _ _ _ _ _ _ _ _ _ ST) as Eo. pose proof (s_prune0 _ _ _ _ _ _ _ _ _ _ ST) as P0. pose proof (s_prune1 _ _ _ _ _ _ _ _ _ _ ST) as P1.
  destruct (m_grow e h x Eo P0 P1 Dc ND poss _ _ R2 R5 N1 N2 HA _ _ _ _ S1) as (new & E1 & B1).
  pose proof (m_passes e h x Eo P0 P1 Dc ND poss _ _ R2 R5 N1 N2 PL _ _ _ _ _ S2) as PS.
  assert (CA : candidates false x (labels (frows p)) (labels (frows n)) (old_possible init) poss) by (rewrite <- R3, <- R6; apply cand_false; auto).
  rewrite <- R3, <- R6 in *.
  unfold cover_remaining in S3. rewrite !l_left in S3 by auto.
  set (rp := grem (rsat (fcols x)) rs2 (frows p')) in *. set (rn := grem (rsat (fcols x)) rs2 (frows n')) in *.
  pose proof (l_picks x Dc ND rs2 _ R2) as PP. pose proof (l_picks x Dc ND rs2 _ R5) as PN. fold rp in PP. fold rn in PN.
  assert (Wp : incl rp (frows x)) by (apply (l_remsub x); auto). assert (Wn : incl rn (frows x)) by (apply (l_remsub x); auto).
  destruct (1 <=? length rp) eqn:LE.
  - binv S3. destruct v as [rs' t']. rename E into G. injection S3 as <- <- <-.
    set (old := match rs2 with [] => [] | _ => poss end) in *.
    assert (OLD : old = if length rs2 =? 0 then [] else poss) by (unfold old; destruct rs2; reflexivity).
    set (poss' := update_possible_conds (set_order e) old (mkframe (fcols x) rp) (mkframe (fcols x) rn)) in *.
    destruct (m_grow e h x Eo P0 P1 Dc ND poss' rp rn Wp Wn ltac:(apply NoDup_map_filter; auto) ltac:(apply NoDup_map_filter; auto) HA _ _ _ _ G) as (more & E3 & B3).
    exists poss, new, rs2, (labels rp), (labels rn), poss', more. split; auto. split; auto. split; [rewrite <- E1; exact PS|]. split; auto. split; auto. split.
    + right. split; [intros Q; destruct rp; discriminate|]. split; auto. rewrite <- OLD. apply (cand_false (mkframe (fcols x) rp) (mkframe (fcols x) rn)); auto.
    + rewrite <- E3. exact (proj1 (m_kept x ND poss' _ _ R2 R5 _ _ _ S4)).
  - injection S3 as <- <- <-. exists poss, new, rs2, (labels rp), (labels rn), poss, []. split; auto. split; auto. split; [rewrite <- E1; exact PS|]. split; auto. split; auto. split.
    + left. apply Nat.leb_gt in LE. destruct rp; [auto|cbn in LE; lia].
    + rewrite app_nil_r. exact (proj1 (m_kept x ND poss _ _ R2 R5 _ _ _ S4)).
Qed.
End C.
