(** * IrepFacts.v : the IREP loop, both engines *)
From Verif Require Export LearnFacts.
From Coq Require Import Lqa.
Open Scope nat_scope.

Section I.
Context {E : Type} (cs : cond -> E -> bool) (D : list E -> Prop) (cands : rule -> list cond)
        (sp : nat -> list E -> list E * list E) (h : hyper).

Definition gmetric (pp np : list E) (r : rule) : res (option Q) :=
  irep_metric (length pp) (length np) (length (gcov cs r pp)) (length (gcov cs r np)).
Definition gprec (pp np : list E) (r : rule) : option Q := precision_of (length (gcov cs r pp)) (length (gcov cs r np)).
Definition gdrop (r : rule) (l : list E) : list E := filter (fun i => negb (gsat cs r i)) l.

Fixpoint girep (fuel : nat) (t : nat) (rs : list rule) (pos neg : list E) : res (list rule * nat) :=
  match fuel with
  | O => Err OutOfFuel
  | S k =>
      if length pos =? 0 then Ok (rs, t)
      else if stop_early (length rs) (count_conds rs) (length pos) (length neg)
                (h_max_rules h) (h_min_ruleset_samples h) (h_max_total_conds h) then Ok (rs, t)
      else
        let '(pg, pp) := sp t pos in
        let '(ng, np) := sp (S t) neg in
        grown <- ggrow cs (S (length ng)) cands pg ng (h_max_rule_conds h) (h_min_rule_samples h) (Rule_ []) ;;
        if prune_off h then girep k (t + 2) (rs_add grown rs) (gdrop grown pos) neg
        else
          pruned <- prune_rule (gmetric pp np) grown ;;
          match pruned with
          | None => Err AttributeError
          | Some pruned =>
              if bad_precision (gprec pp np pruned) then Ok (rs, t + 2)
              else girep k (t + 2) (rs_add pruned rs) (gdrop pruned pos) (gdrop pruned neg)
          end
  end.

(** examples not covered by any of the rules *)
Definition grem (new : list rule) (l : list E) : list E := filter (fun i => negb (existsb (fun r => gsat cs r i) new)) l.
Lemma grem_nil l : grem [] l = l.
Proof. apply filter_all. intros; reflexivity. Qed.
Lemma grem_snoc new r l : gdrop r (grem new l) = grem (new ++ [r]) l.
Proof.
  unfold gdrop, grem. rewrite filter_filter. apply filter_ext. intros i. rewrite existsb_app. cbn [existsb].
  rewrite Bool.orb_false_r, Bool.negb_orb. try reflexivity; apply Bool.andb_comm.
Qed.

Record sp_ok : Prop := mksp {
  D_filter : forall p l, D l -> D (filter p l);
  sp_perm : forall t l a b, D l -> sp t l = (a, b) -> Permutation (a ++ b) l;
  sp_off : forall t l a b, D l -> prune_off h = true -> sp t l = (a, b) -> b = [];
  sp_on : forall t l a b, D l -> prune_off h = false -> l <> [] -> sp t l = (a, b) -> b <> [] }.
Context (OK : sp_ok).
Lemma D_drop r l : D l -> D (gdrop r l). Proof. apply (D_filter OK). Qed.

(** ** Totality *)
Lemma gmetric_total pp np r : pp <> [] -> exists q, gmetric pp np r = Ok (Some q) /\ (0 <= q)%Q.
Proof.
  intros H. unfold gmetric. destruct (irep_metric_value (length pp) (length np) (length (gcov cs r pp)) (length (gcov cs r np)))
    as (q & Q1 & _ & Q2 & _).
  - destruct pp; [congruence|]. cbn. lia.
  - apply filter_length_le.
  - apply filter_length_le.
  - eauto.
Qed.
Lemma gprune_total pp np r : pp <> [] -> exists s, prune_rule (gmetric pp np) r = Ok (Some s).
Proof.
  intros H. destruct (conds r) as [|c t] eqn:C; [exists r; apply prune_rule_empty; auto|].
  assert (V : forall p, exists q, gmetric pp np (set_conds r p) = Ok (Some q)).
  { intros p. destruct (gmetric_total pp np (set_conds r p) H) as (q & ? & _). eauto. }
  set (v := fun p => match gmetric pp np (set_conds r p) with Ok (Some q) => q | _ => 0%Q end).
  destruct (prune_rule_spec (gmetric pp np) r v) as (b & B & _).
  - congruence.
  - intros p _ _. unfold v. destruct (V p) as (q & ->). reflexivity.
  - eauto.
Qed.
Lemma good_prec p n : bad_precision (precision_of p n) = false -> 0 < p /\ n <= p.
Proof.
  unfold precision_of. destruct (p + n =? 0) eqn:Z0; [discriminate|]. apply Nat.eqb_neq in Z0. cbn.
  intros H. apply Bool.orb_false_elim in H. destruct H as [H1 H2]. apply Qlt_b_false in H2.
  assert (P : (0 < qn (p + n))%Q) by (apply qn_pos; lia).
  assert (X : (qn p == qdiv p (p + n) * qn (p + n))%Q).
  { unfold qdiv. field. intros C. rewrite C in P. apply (Qlt_irrefl 0 P). }
  assert (Y : (qn (p + n) <= 2 * qn p)%Q) by (rewrite X; nra).
  assert (Z : p + n <= 2 * p).
  { unfold qn in Y. change 2%Q with (inject_Z 2) in Y. rewrite <- inject_Z_mult, <- Zle_Qle in Y. lia. }
  lia.
Qed.
Lemma bad_prec_spec p n : bad_precision (precision_of p n) = true <-> p = 0 \/ p < n.
Proof.
  destruct (bad_precision (precision_of p n)) eqn:B.
  - split; auto. intros _. unfold precision_of in B. destruct (p + n =? 0) eqn:Z0; [apply Nat.eqb_eq in Z0; lia|]. apply Nat.eqb_neq in Z0. cbn in B.
    assert (P : (0 < qn (p + n))%Q) by (apply qn_pos; lia).
    assert (X : (qn p == qdiv p (p + n) * qn (p + n))%Q).
    { unfold qdiv. field. intros C. rewrite C in P. apply (Qlt_irrefl 0 P). }
    apply Bool.orb_true_iff in B. destruct B as [B|B].
    + left. apply Qeq_bool_eq in B. rewrite B, Qmult_0_l in X. unfold qn in X. change 0%Q with (inject_Z 0) in X.
      apply (inject_Z_injective (Z.of_nat p) 0) in X. lia.
    + right. apply Qlt_b_iff in B. assert (Y : (2 * qn p < qn (p + n))%Q) by (rewrite X; nra).
      unfold qn in Y. change 2%Q with (inject_Z 2) in Y. rewrite <- inject_Z_mult, <- Zlt_Qlt in Y. lia.
  - apply good_prec in B. split; [discriminate|lia].
Qed.

Lemma gdrop_fewer r l i : In i l -> gsat cs r i = true -> length (gdrop r l) < length l.
Proof.
  intros I S. unfold gdrop. induction l as [|x l IH]; [destruct I|]. cbn [filter length].
  destruct I as [->|I].
  - unfold gsat in *. rewrite S. cbn [negb]. pose proof (filter_length_le (fun i0 => negb (forallb (fun c => cs c i0) (conds r))) l). lia.
  - specialize (IH I). destruct (negb (gsat cs r x)); cbn [length]; lia.
Qed.

Lemma girep_total fuel : forall t rs pos neg, D pos -> D neg -> length pos < fuel -> isOk (girep fuel t rs pos neg).
Proof.
  induction fuel as [|k IH]; intros t rs pos neg Dp Dn L; [lia|]. cbn [girep].
  destruct (length pos =? 0) eqn:Z0; [eexists; eauto|]. apply Nat.eqb_neq in Z0.
  assert (PN : pos <> []) by (intros C; rewrite C in Z0; auto).
  destruct (stop_early _ _ _ _ _ _ _); [eexists; eauto|].
  destruct (sp t pos) as [pg pp] eqn:S1. destruct (sp (S t) neg) as [ng np] eqn:S2.
  destruct (ggrow_total0 cs cands pg ng (h_max_rule_conds h) (h_min_rule_samples h) (Rule_ [])) as [g G].
  rewrite G. cbn [bind]. pose proof (sp_perm OK _ _ _ _ Dp S1) as P1.
  destruct (prune_off h) eqn:Off.
  - pose proof (sp_off OK _ _ _ _ Dp Off S1) as ->. rewrite app_nil_r in P1.
    apply IH; auto using D_drop.
    assert (GP : gcov cs g pg <> []).
    { apply ggrow_spec in G. destruct G as (r1 & C & X). eapply grown_pos; eauto. rewrite gcov_empty.
      intros C'. subst pg. apply Permutation_nil in P1. auto. }
    destruct (gcov cs g pg) as [|i l] eqn:GC; [congruence|].
    assert (I : In i (gcov cs g pg)) by (rewrite GC; left; auto). apply filter_In in I. destruct I as [I1 I2].
    assert (length (gdrop g pos) < length pos); [|lia]. apply gdrop_fewer with i; auto. eapply Permutation_in; eauto.
  - destruct (gprune_total pp np g (sp_on OK _ _ _ _ Dp Off PN S1)) as [s S]. rewrite S. cbn [bind].
    destruct (bad_precision (gprec pp np s)) eqn:B; [eexists; eauto|]. apply good_prec in B. destruct B as [B _].
    apply IH; auto using D_drop.
    destruct (gcov cs s pp) as [|i l] eqn:GC; [cbn in B; lia|].
    assert (I : In i (gcov cs s pp)) by (rewrite GC; left; auto). apply filter_In in I. destruct I as [I1 I2].
    assert (length (gdrop s pos) < length pos); [|lia]. apply gdrop_fewer with i; auto.
    eapply Permutation_in; [exact P1|]. apply in_or_app; auto.
Qed.

(** ** What a run consists of *)
Definition gneg (new : list rule) (neg : list E) : list E := if prune_off h then neg else grem new neg.
Definition gstep (init a : list rule) (pos neg : list E) (r : rule) : Prop :=
  exists t pg pp ng np g, sp t (grem a pos) = (pg, pp) /\ sp (S t) (gneg a neg) = (ng, np) /\ grem a pos <> [] /\
    stop_early (length (init ++ a)) (count_conds (init ++ a)) (length (grem a pos)) (length (gneg a neg))
      (h_max_rules h) (h_min_ruleset_samples h) (h_max_total_conds h) = false /\
    ggrow cs (S (length ng)) cands pg ng (h_max_rule_conds h) (h_min_rule_samples h) (Rule_ []) = Ok g /\
    if prune_off h then r = g
    else prune_rule (gmetric pp np) g = Ok (Some r) /\ bad_precision (gprec pp np r) = false.
Definition gstop (init new : list rule) (pos neg : list E) : Prop :=
  grem new pos = [] \/
  (grem new pos <> [] /\ stop_early (length (init ++ new)) (count_conds (init ++ new)) (length (grem new pos)) (length (gneg new neg))
      (h_max_rules h) (h_min_ruleset_samples h) (h_max_total_conds h) = true) \/
  (prune_off h = false /\ exists t pg pp ng np g r, sp t (grem new pos) = (pg, pp) /\ sp (S t) (gneg new neg) = (ng, np) /\ grem new pos <> [] /\
    stop_early (length (init ++ new)) (count_conds (init ++ new)) (length (grem new pos)) (length (gneg new neg))
      (h_max_rules h) (h_min_ruleset_samples h) (h_max_total_conds h) = false /\
    ggrow cs (S (length ng)) cands pg ng (h_max_rule_conds h) (h_min_rule_samples h) (Rule_ []) = Ok g /\
    prune_rule (gmetric pp np) g = Ok (Some r) /\ bad_precision (gprec pp np r) = true).

Lemma girep_run_aux fuel init pos neg : D pos -> D neg -> forall t a rs t', girep fuel t (init ++ a) (grem a pos) (gneg a neg) = Ok (rs, t') ->
  (forall u r v, a = u ++ r :: v -> gstep init u pos neg r) ->
  exists new, rs = init ++ new /\ (forall u r v, new = u ++ r :: v -> gstep init u pos neg r) /\ gstop init new pos neg.
Proof.
  intros Dp Dn. induction fuel as [|k IH]; intros t a rs t' H T; [discriminate|]. cbn [girep] in H.
  destruct (length (grem a pos) =? 0) eqn:Z0.
  { injection H as <- <-. exists a. split; auto. split; auto. left. apply Nat.eqb_eq in Z0. apply length_zero_iff_nil; auto. }
  assert (PN : grem a pos <> []) by (intros C; rewrite C in Z0; discriminate).
  destruct (stop_early _ _ _ _ _ _ _) eqn:SE.
  { injection H as <- <-. exists a. split; auto. split; auto. right; left. auto. }
  destruct (sp t (grem a pos)) as [pg pp] eqn:S1. destruct (sp (S t) (gneg a neg)) as [ng np] eqn:S2.
  binv H. rename v into g.
  assert (EXT : forall r, gstep init a pos neg r -> forall u r' v, a ++ [r] = u ++ r' :: v -> gstep init u pos neg r').
  { intros r ST u r' v Eq. destruct v as [|x v] using rev_ind.
    - apply app_inj_tail in Eq. destruct Eq as [-> ->]. auto.
    - rewrite app_comm_cons, app_assoc in Eq. apply app_inj_tail in Eq. destruct Eq as [-> _]. eapply T; eauto. }
  destruct (prune_off h) eqn:Off.
  - rewrite grem_snoc in H. unfold gneg in H. rewrite Off in H. unfold rs_add in H. rewrite <- app_assoc in H.
    apply (IH (t + 2) (a ++ [g]) rs t').
    + unfold gneg. rewrite Off. exact H.
    + apply EXT. exists t, pg, pp, ng, np, g. rewrite Off. auto 10.
  - binv H. destruct v as [s|]; [|discriminate]. destruct (bad_precision (gprec pp np s)) eqn:B.
    + injection H as <- <-. exists a. split; auto. split; auto. right; right. split; auto.
      exists t, pg, pp, ng, np, g, s. auto 10.
    + rewrite grem_snoc in H. unfold rs_add in H. rewrite <- app_assoc in H.
      apply (IH (t + 2) (a ++ [s]) rs t').
      * unfold gneg in *. rewrite Off in *. rewrite grem_snoc in H. exact H.
      * apply EXT. exists t, pg, pp, ng, np, g. rewrite Off. auto 10.
Qed.
Lemma girep_run fuel init pos neg t rs t' : D pos -> D neg -> girep fuel t init pos neg = Ok (rs, t') ->
  exists new, rs = init ++ new /\ (forall u r v, new = u ++ r :: v -> gstep init u pos neg r) /\ gstop init new pos neg.
Proof.
  intros Dp Dn H. apply (girep_run_aux fuel init pos neg Dp Dn t [] rs t').
  - rewrite app_nil_r. unfold gneg. rewrite !grem_nil. destruct (prune_off h); exact H.
  - intros u r v C. destruct u; discriminate.
Qed.

(** ** Consequences *)
Lemma gstep_prefix init a pos neg r : gstep init a pos neg r -> exists t pg pp ng np g,
  sp t (grem a pos) = (pg, pp) /\ sp (S t) (gneg a neg) = (ng, np) /\ grem a pos <> [] /\
  ggrow cs (S (length ng)) cands pg ng (h_max_rule_conds h) (h_min_rule_samples h) (Rule_ []) = Ok g /\ Spec.prefix (conds r) (conds g).
Proof.
  intros (t & pg & pp & ng & np & g & S1 & S2 & NE & _ & G & R). exists t, pg, pp, ng, np, g. repeat split; auto.
  destruct (prune_off h); [subst; apply prefix_refl|]. destruct R as [R _]. apply prune_rule_any in R.
  destruct R as (b & -> & B & _). exact B.
Qed.
Lemma gstep_conds init a pos neg r c : gstep init a pos neg r -> In c (conds r) -> exists s, In c (cands s).
Proof.
  intros H I. apply gstep_prefix in H. destruct H as (t & pg & pp & ng & np & g & _ & _ & _ & G & [b B]).
  apply ggrow_spec in G. destruct G as (r1 & C & X).
  apply (grown_conds cs cands pg ng _ _ _ _ _ (fun c => exists s, In c (cands s)) C X); eauto.
  - intros x [].
  - rewrite B. apply in_or_app; auto.
Qed.
Lemma gstep_len init a pos neg r m : gstep init a pos neg r -> h_max_rule_conds h = Some m -> (0 <= m)%Z ->
  (Z.of_nat (length (conds r)) <= m)%Z.
Proof.
  intros H M Z. apply gstep_prefix in H. destruct H as (t & pg & pp & ng & np & g & _ & _ & _ & G & [b B]).
  apply ggrow_spec in G. destruct G as (r1 & C & X).
  pose proof (grown_len cs cands pg ng _ _ _ _ _ m C X M) as L. cbn in L. specialize (L Z). rewrite B, app_length in L. lia.
Qed.
Lemma gstep_pos init a pos neg r : D pos -> gstep init a pos neg r -> exists i, In i pos /\ gsat cs r i = true.
Proof.
  intros Dp H. destruct H as (t & pg & pp & ng & np & g & S1 & S2 & NE & _ & G & R).
  pose proof (sp_perm OK _ _ _ _ (D_filter OK _ _ Dp) S1) as P1.
  assert (IN : forall i, In i (pg ++ pp) -> In i pos).
  { intros i I. apply (Permutation_in _ P1) in I. apply filter_In in I. tauto. }
  destruct (prune_off h) eqn:Off.
  - subst g. pose proof (sp_off OK _ _ _ _ (D_filter OK _ _ Dp) Off S1) as ->. rewrite app_nil_r in P1.
    apply ggrow_spec in G. destruct G as (r1 & C & X).
    assert (GP : gcov cs r pg <> []). { eapply grown_pos; eauto. rewrite gcov_empty. intros Z. subst pg. apply Permutation_nil in P1. auto. }
    destruct (gcov cs r pg) as [|i l] eqn:GC; [congruence|].
    assert (I : In i (gcov cs r pg)) by (rewrite GC; left; auto). apply filter_In in I. destruct I as [I1 I2].
    exists i. split; auto. apply IN. apply in_or_app; auto.
  - destruct R as [_ B]. apply good_prec in B. destruct B as [B _].
    destruct (gcov cs r pp) as [|i l] eqn:GC; [cbn in B; lia|].
    assert (I : In i (gcov cs r pp)) by (rewrite GC; left; auto). apply filter_In in I. destruct I as [I1 I2].
    exists i. split; auto. apply IN. apply in_or_app; auto.
Qed.
End I.
Arguments sp_ok {E} D sp h.

(** ** Instances *)
Lemma prune_off_grow h : prune_off h = true -> (grow_size h == 1)%Q.
Proof. unfold prune_off, grow_size. intros H. apply Qeq_bool_eq in H. rewrite H. reflexivity. Qed.
Lemma prune_on_grow h : prune_off h = false -> (0 <= h_prune h)%Q -> (grow_size h < 1)%Q.
Proof.
  unfold prune_off, grow_size. intros H P. assert (~ (h_prune h == 0)%Q). { intros C. apply Qeq_bool_iff in C. congruence. }
  assert (0 < h_prune h)%Q by (apply Qle_lteq in P; destruct P as [?|C]; auto; exfalso; apply H0; rewrite <- C; reflexivity). lra.
Qed.

Definition in_index (cn : catnap) (l : list nat) : Prop := incl l (cn_all cn).
Lemma cn_sp_ok e h cn : env_ok e -> (0 <= h_prune h)%Q -> (h_prune h <= 1)%Q ->
  sp_ok (in_index cn) (fun t l => random_split e t (grow_size h) l) h.
Proof.
  intros Eo P0 P1. assert (G0 : (0 <= grow_size h)%Q) by (unfold grow_size; lra). assert (G1 : (grow_size h <= 1)%Q) by (unfold grow_size; lra).
  constructor.
  - intros p l H i I. apply filter_In in I. apply H; tauto.
  - intros t l a b _ H. apply random_split_spec in H; tauto.
  - intros t l a b _ Off H. apply random_split_one in H; [tauto|auto|]. apply prune_off_grow; auto.
  - intros t l a b _ On NE H. eapply random_split_second; eauto. apply prune_on_grow; auto.
Qed.
Definition row_labels_distinct (l : list row) : Prop := NoDup (labels l).
Lemma df_sp_ok e h : env_ok e -> (0 <= h_prune h)%Q -> (h_prune h <= 1)%Q ->
  sp_ok row_labels_distinct (fun t l => df_shuffled_split e t (grow_size h) l) h.
Proof.
  intros Eo P0 P1. assert (G0 : (0 <= grow_size h)%Q) by (unfold grow_size; lra). assert (G1 : (grow_size h <= 1)%Q) by (unfold grow_size; lra).
  constructor.
  - intros p l H. apply NoDup_map_filter. exact H.
  - intros t l a b ND H. apply df_split_spec in H; tauto.
  - intros t l a b _ Off H. unfold df_shuffled_split in H. destruct (random_split e t (grow_size h) (labels l)) as [i1 i2] eqn:R.
    apply random_split_one in R; [|auto|apply prune_off_grow; auto]. destruct R as [_ ->]. injection H as <- <-. reflexivity.
  - intros t l a b ND On NE H. eapply df_split_second; eauto. apply prune_on_grow; auto.
Qed.

Lemma prune_rule_ext m m' r : (forall s, m s = m' s) -> prune_rule m r = prune_rule m' r.
Proof.
  intros H. unfold prune_rule. destruct (rule_isempty r); auto. generalize (Some r). generalize 0%Q.
  assert (K : forall n q o, prune_loop m r n q o = prune_loop m' r n q o).
  { induction n as [|n IH]; intros q o; [reflexivity|]. cbn [prune_loop]. rewrite H.
    destruct (m' _) as [[x|]|]; cbn [bind]; auto. destruct (Qle_bool q x); apply IH. }
  intros. rewrite K. reflexivity.
Qed.

Lemma set_minus_gdrop cn r l : incl l (cn_all cn) -> set_minus l (cn_rule_covers cn r l) = gdrop (lsat cn) r l.
Proof. intros H. rewrite cn_rule_covers_g by auto. apply set_minus_filter. Qed.
Lemma perm_incl {A} (a b l x : list A) : Permutation (a ++ b) l -> incl l x -> incl a x /\ incl b x.
Proof.
  intros P H. split; intros i I; apply H; eapply Permutation_in; try exact P; apply in_or_app; auto.
Qed.
Lemma irep_loop_cn_g e h cn fuel : env_ok e -> (0 <= h_prune h)%Q -> (h_prune h <= 1)%Q ->
  forall t rs pos neg, incl pos (cn_all cn) -> incl neg (cn_all cn) ->
  irep_loop_cn fuel e h cn t rs pos neg = girep (lsat cn) (cn_cands cn) (fun t l => random_split e t (grow_size h) l) h fuel t rs pos neg.
Proof.
  intros Eo P0 P1. pose proof (cn_sp_ok e h cn Eo P0 P1) as OK.
  induction fuel as [|k IH]; intros t rs pos neg Ip In_; [reflexivity|]. cbn [irep_loop_cn girep].
  destruct (_ =? 0); auto. destruct (stop_early _ _ _ _ _ _ _); auto.
  destruct (random_split e t (grow_size h) pos) as [pg pp] eqn:S1. destruct (random_split e (S t) (grow_size h) neg) as [ng np] eqn:S2.
  pose proof (sp_perm _ _ _ OK _ _ _ _ Ip S1) as Q1. pose proof (sp_perm _ _ _ OK _ _ _ _ In_ S2) as Q2.
  destruct (perm_incl _ _ _ _ Q1 Ip) as [I1 I2]. destruct (perm_incl _ _ _ _ Q2 In_) as [I3 I4].
  rewrite grow_rule_cn_g by auto. destruct (ggrow _ _ _ _ _ _ _ _) as [g|]; cbn [bind]; auto.
  destruct (prune_off h).
  - rewrite set_minus_gdrop by auto. apply IH; auto. intros i I. apply filter_In in I. apply Ip; tauto.
  - rewrite (prune_rule_ext _ (gmetric (lsat cn) pp np)).
    2:{ intros s. unfold gmetric. rewrite !cn_rule_covers_g by auto. reflexivity. }
    destruct (prune_rule _ g) as [[s|]|]; cbn [bind]; auto. unfold gprec. rewrite !cn_rule_covers_g by auto.
    destruct (bad_precision _); auto. unfold rm_rule_covers_cn. rewrite !set_minus_gdrop by auto.
    apply IH; intros i I; apply filter_In in I; [apply Ip|apply In_]; tauto.
Qed.
Lemma drop_gdrop cols r l : NoDup (labels l) -> drop_labels l (labels (rcov cols r l)) = gdrop (rsat cols) r l.
Proof. intros H. unfold rcov. rewrite drop_labels_filter by auto. reflexivity. Qed.
Lemma irep_loop_g e h cols possible fuel :
  forall t rs pos neg, NoDup (labels pos) -> NoDup (labels neg) ->
  irep_loop fuel e h cols possible t rs pos neg =
  girep (rsat cols) (df_cands possible) (fun t l => df_shuffled_split e t (grow_size h) l) h fuel t rs pos neg.
Proof.
  induction fuel as [|k IH]; intros t rs pos neg Np Nn; [reflexivity|]. cbn [irep_loop girep].
  destruct (_ =? 0); auto. destruct (stop_early _ _ _ _ _ _ _); auto.
  destruct (df_shuffled_split e t (grow_size h) pos) as [pg pp]. destruct (df_shuffled_split e (S t) (grow_size h) neg) as [ng np].
  rewrite grow_rule_g by auto. destruct (ggrow _ _ _ _ _ _ _ _) as [g|]; cbn [bind]; auto.
  destruct (prune_off h).
  - rewrite drop_gdrop by auto. apply IH; auto. apply NoDup_map_filter; auto.
  - change (fun r => irep_metric (length pp) (length np) (length (rcov cols r pp)) (length (rcov cols r np))) with (gmetric (rsat cols) pp np).
    destruct (prune_rule _ g) as [[s|]|]; cbn [bind]; auto. unfold gprec. rewrite !rcov_gcov.
    destruct (bad_precision _); auto. rewrite <- !rcov_gcov, !drop_gdrop by auto.
    apply IH; apply NoDup_map_filter; auto.
Qed.
