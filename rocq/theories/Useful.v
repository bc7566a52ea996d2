(** * Useful.v : every condition the learners add turns away a negative training example *)
From Verif Require Export Fires UsefulSpec.
From Coq Require Import Lqa.
Open Scope nat_scope.

Section G.
Context {E : Type} (cs : cond -> E -> bool) (neg0 : list E).
Definition useful (l : list cond) : Prop := forall a c b, l = a ++ c :: b -> exists i, In i neg0 /\ forallb (fun d => cs d i) a = true /\ cs c i = false.
Lemma useful_prefix l b : useful (l ++ b) -> useful l.
Proof. intros H a c t ->. apply (H a c (t ++ b)). rewrite <- app_assoc. reflexivity. Qed.
Lemma useful_nil : useful []. Proof. intros [|? ?] ? ? Q; discriminate. Qed.
Lemma useful_snoc l d : useful l -> (exists i, In i neg0 /\ forallb (fun d => cs d i) l = true /\ cs d i = false) -> useful (l ++ [d]).
Proof.
  intros H K a c t Q. destruct t as [|t0 t _] using rev_ind.
  - apply app_inj_tail in Q. destruct Q as [-> ->]. exact K.
  - assert (Q' : l ++ [d] = (a ++ c :: t) ++ [t0]) by (rewrite Q, <- !app_assoc; reflexivity). apply app_inj_tail in Q'. destruct Q' as [-> _]. eapply H. reflexivity.
Qed.
Lemma chain_useful cands pos neg mc ms r r1 : incl neg neg0 -> gchain cs cands pos neg mc ms r r1 -> useful (conds r) -> useful (conds r1).
Proof.
  intros I0. induction 1 as [|r c r' N U G I P L C IH]; auto. intros S. apply IH. cbn [conds Rule_]. apply useful_snoc; auto.
  rewrite gcov_step in L. destruct (existsb (fun i => negb (cs c i)) (gcov cs (Rule_ (conds r)) neg)) eqn:X.
  - apply existsb_exists in X. destruct X as (i & Xi & Xc). apply filter_In in Xi. destruct Xi as [X1 X2]. exists i. split; auto. split; [exact X2|]. destruct (cs c i); auto; discriminate.
  - exfalso. rewrite (gcov_conds cs (Rule_ (conds r)) r) in L, X by auto.
    assert (Q : forall l, existsb (fun i => negb (cs c i)) l = false -> filter (cs c) l = l); [|rewrite Q in L; [lia|exact X]].
    clear. induction l as [|i l IH]; cbn; auto. intros H. apply Bool.orb_false_iff in H. destruct H as [H1 H2]. destruct (cs c i); [|discriminate]. f_equal; auto.
Qed.
Lemma grow_useful cands pos neg mc ms fuel r g : incl neg neg0 -> ggrow cs fuel cands pos neg mc ms r = Ok g -> useful (conds r) -> useful (conds g).
Proof.
  intros I0 H S. apply ggrow_spec in H. destruct H as (r1 & C & X). apply gexit_prefix in X. destruct X as [b B].
  apply useful_prefix with b. rewrite <- B. eapply chain_useful; eauto.
Qed.
Context (D : list E -> Prop) (cands : rule -> list cond) (sp : nat -> list E -> list E * list E) (h : hyper).
Context (Df : forall p l, D l -> D (filter p l)) (Dsp : forall t l a b, D l -> sp t l = (a, b) -> Permutation (a ++ b) l).
Lemma split_incl t l a b : D l -> incl l neg0 -> sp t l = (a, b) -> incl a neg0.
Proof. intros Dl IL S i I. apply IL. eapply Permutation_in; [exact (Dsp _ _ _ _ Dl S)|]. apply in_or_app; auto. Qed.
Lemma grem_incl u neg : incl neg neg0 -> incl (grem cs u neg) neg0.
Proof. intros H i I. apply filter_In in I. apply H. tauto. Qed.
Lemma gadded_useful prune pos neg r : D neg -> incl neg neg0 ->
  (forall pp np r s, prune pp np r = Ok (Some s) -> exists b, s = set_conds r b /\ Spec.prefix b (conds r) /\ (conds r <> [] -> b <> [])) ->
  gadded cs cands sp h prune pos neg r -> useful (conds r).
Proof.
  intros Dn IN PRa (t & pg & pp & ng & np & g & _ & S2 & _ & G & _ & P). apply PRa in P. destruct P as (b & -> & [b' B] & _). cbn [conds set_conds].
  apply useful_prefix with b'. rewrite <- B. eapply grow_useful; [eapply split_incl; eauto|exact G|apply useful_nil].
Qed.
Lemma gslot_useful met orig pos neg i r r' : D neg -> incl neg neg0 -> useful (conds r) -> gslot cs cands sp h met orig pos neg i r (Some r') -> useful (conds r').
Proof.
  intros Dn IN S (t & pg & pp & ng & np & g & _ & S2 & _ & G & P). apply prune_rule_on_any in P. destruct P as (b & -> & [b' B] & _). cbn [conds set_conds].
  apply useful_prefix with b'. rewrite <- B. assert (IG : incl ng neg0) by (eapply split_incl; [|apply grem_incl; exact IN|exact S2]; apply Df; auto).
  destruct G as [G|G]; (eapply grow_useful; [exact IG|exact G|auto using useful_nil]).
Qed.
Lemma gstep_useful init a pos neg r : D neg -> incl neg neg0 -> gstep cs cands sp h init a pos neg r -> useful (conds r).
Proof.
  intros Dn IN H. apply gstep_prefix in H. destruct H as (t & pg & pp & ng & np & g & _ & S2 & _ & G & [b B]).
  apply useful_prefix with b. rewrite <- B. eapply grow_useful; [eapply split_incl; [| |exact S2]|exact G|apply useful_nil];
    unfold gneg; destruct (prune_off h); auto; [apply Df; auto|apply grem_incl; auto].
Qed.
End G.

(** ** Instances *)
Section S.
Context {e h df cf pc x p n p' n'} (ST : setting e h df cf pc x p n p' n').
Lemma neg_row rw : In rw (frows n) -> In rw (frows df) /\ ~ positive_row (fcols df) cf pc rw.
Proof.
  destruct (st_pn ST) as [_ ->]. intros I. apply filter_In in I. destruct I as [I C]. split; auto. destruct (s_good _ _ _ _ _ _ _ _ _ _ ST) as [_ D].
  intros (v & V & Q). apply cell_value_at in V; auto. unfold cell_eq in C. rewrite V, Q in C. discriminate.
Qed.
Lemma row_of_label rw i : In i (labels (frows n)) -> In rw (frows df) -> rlab rw = i -> In rw (frows n).
Proof.
  intros I1 I3 I4. apply in_map_iff in I1. destruct I1 as (rw' & L & I1).
  assert (In rw' (frows df)). { destruct (st_pn ST) as [_ Ep]. rewrite Ep in I1. apply filter_In in I1. tauto. }
  assert (rw' = rw) as <-; auto. apply (NoDup_map_inj rlab (frows df)); auto; [apply (s_labels _ _ _ _ _ _ _ _ _ _ ST)|congruence].
Qed.
(** a rule that fires somewhere and whose conditions are useful by label works on the table *)
Lemma useful_works r : useful (xsat x) (labels (frows n)) (conds r) -> (exists i, In i (labels (frows x)) /\ gsat (xsat x) r i = true) -> every_condition_works df cf pc r.
Proof.
  intros U (j & J1 & J2) a c b Q. destruct (U a c b Q) as (i & I1 & I2 & I3).
  destruct (st_xgood ST) as ([W Dc] & EL & ND & _). destruct (st_in ST) as [_ Jn].
  assert (Ix : In i (labels (frows x))) by (apply Jn; auto).
  apply in_map_iff in Ix. destruct Ix as (rw & Li & Ix). apply in_map_iff in J1. destruct J1 as (rj & Lj & J1). subst i j.
  destruct (drop_col_value _ _ _ _ (s_x _ _ _ _ _ _ _ _ _ _ ST) Ix) as (rw0 & K1 & K2 & K3).
  assert (Ng : In rw0 (frows n)) by (eapply row_of_label; eauto). destruct (neg_row _ Ng) as [N1 N2]. exists rw0. do 2 (split; [assumption|]). split.
  - intros d Id. rewrite forallb_forall in I2. specialize (I2 d Id). rewrite xsat_row in I2 by auto. unfold rsat in I2. apply cell_eq_sat in I2; auto.
    destruct I2 as (v & V & Qv). exists v. auto.
  - rewrite xsat_row in I3 by auto. unfold rsat, cell_eq in I3. unfold gsat in J2. rewrite forallb_forall in J2.
    specialize (J2 c). rewrite Q in J2. specialize (J2 (in_elt _ _ _)). rewrite xsat_row in J2 by auto. unfold rsat, cell_eq, cell in J2.
    destruct (col_pos (fcols x) (cfeat c)) as [k|] eqn:CP; [|discriminate]. destruct (nth_error (rcells rj) k) as [vj|] eqn:Vj; [|discriminate].
    assert (k < length (rcells rw)). { assert (k < length (rcells rj)) by (apply nth_error_Some; congruence). rewrite (W rw Ix), <- (W rj J1). exact H. }
    destruct (nth_error (rcells rw) k) as [v|] eqn:V; [|apply nth_error_None in V; lia].
    exists v. split.
    + apply K3. apply cell_value_at; auto. unfold cell. rewrite CP. exact V.
    + unfold cell in I3. rewrite CP, V in I3. exact I3.
Qed.
(** a rule that fires somewhere and is satisfied by a row of the table covers the label of that row *)
Lemma sat_back r rw : (exists i, In i (labels (frows x)) /\ gsat (xsat x) r i = true) -> In rw (frows df) -> sat_rule (fcols df) rw r -> gsat (xsat x) r (rlab rw) = true.
Proof.
  intros (j & J1 & J2) I S. destruct (st_xgood ST) as ([W Dc] & EL & ND & _). destruct (s_good _ _ _ _ _ _ _ _ _ _ ST) as [_ D].
  assert (Ix : In (rlab rw) (labels (frows x))) by (rewrite EL; apply in_map; auto). apply in_map_iff in Ix. destruct Ix as (rx & Lx & Ix).
  apply in_map_iff in J1. destruct J1 as (rj & Lj & J1). subst j. unfold gsat in *. rewrite forallb_forall in *. intros c Ic. specialize (J2 c Ic).
  rewrite <- Lx. rewrite xsat_row in * by auto. unfold rsat, cell_eq, cell in *.
  destruct (col_pos (fcols x) (cfeat c)) as [k|] eqn:CP; [|discriminate]. destruct (nth_error (rcells rj) k) as [vj|] eqn:Vj; [|discriminate].
  assert (k < length (rcells rx)). { assert (k < length (rcells rj)) by (apply nth_error_Some; congruence). rewrite (W rx Ix), <- (W rj J1). exact H. }
  destruct (nth_error (rcells rx) k) as [v|] eqn:V; [|apply nth_error_None in V; lia].
  destruct (drop_col_value _ _ _ _ (s_x _ _ _ _ _ _ _ _ _ _ ST) Ix) as (rw0 & K1 & K2 & K3).
  assert (rw0 = rw) as ->. { apply (NoDup_map_inj rlab (frows df)); auto; [apply (s_labels _ _ _ _ _ _ _ _ _ _ ST)|congruence]. }
  assert (V0 : value_at (fcols df) rw (cfeat c) v). { apply K3. apply cell_value_at; auto. unfold cell. rewrite CP. exact V. }
  destruct (S c Ic) as (v' & V' & Q). apply cell_value_at in V', V0; auto. congruence.
Qed.
(** every rule that training adds covers a positive label that the rules before it left over *)
Lemma irep_pos cnopt init rs : irep_train e h cnopt df cf pc init = Ok rs ->
  exists new, rs_rules rs = rs_rules init ++ new /\
    (forall u r v, new = u ++ r :: v -> lstep (x := x) (e := e) (h := h) (cand_conds e cnopt x (old_possible init) p' n') (rs_rules init) u (labels (frows p)) (labels (frows n)) r) /\
    forall u r v, new = u ++ r :: v -> exists i, In i (grem (xsat x) u (labels (frows p))) /\ gsat (xsat x) r i = true.
Proof.
  intros H. destruct (irep_train_run ST _ _ _ H) as (new & E1 & E2 & _). exists new. split; auto. split; [exact E2|].
  destruct (st_in ST) as [Ip Jn]. destruct (st_xgood ST) as ([_ Dc] & _ & ND & _). pose proof (st_spok ST) as OK.
  intros u r v Es. specialize (E2 u r v Es).
    assert (E3 : gstep (xsat x) (fun _ => cand_conds e cnopt x (old_possible init) p' n') (fun t l => random_split e t (grow_size h) l) h (rs_rules init) u (labels (frows p)) (labels (frows n)) r) by exact E2.
    destruct E3 as (t & pg & pp & ng & np & g & S1 & S2 & NE & ST' & G & R).
    assert (D0 : in_frame x (grem (xsat x) u (labels (frows p)))) by (apply (D_filter _ _ _ OK); auto).
    pose proof (sp_perm _ _ _ OK _ _ _ _ D0 S1) as P1.
    destruct (prune_off h) eqn:Off.
    - subst g. pose proof (sp_off _ _ _ OK _ _ _ _ D0 Off S1) as ->. rewrite app_nil_r in P1.
      apply ggrow_spec in G. destruct G as (r1 & C & X).
      assert (GP : gcov (xsat x) r pg <> []). { eapply grown_pos; eauto. rewrite gcov_empty. intros Z. subst pg. apply Permutation_nil in P1. auto. }
      destruct (gcov (xsat x) r pg) as [|i l] eqn:GC; [congruence|].
      assert (I : In i (gcov (xsat x) r pg)) by (rewrite GC; left; auto). apply filter_In in I. destruct I as [I1 I2].
      exists i. split; auto. eapply Permutation_in; eauto.
    - destruct R as [_ B]. apply good_prec in B. destruct B as [B _].
      destruct (gcov (xsat x) r pp) as [|i l] eqn:GC; [cbn in B; lia|].
      assert (I : In i (gcov (xsat x) r pp)) by (rewrite GC; left; auto). apply filter_In in I. destruct I as [I1 I2].
      exists i. split; auto. eapply Permutation_in; [exact P1|]. apply in_or_app; auto.
Qed.
Lemma irep_works cnopt init rs : irep_train e h cnopt df cf pc init = Ok rs ->
  exists new, rs_rules rs = rs_rules init ++ new /\ (forall r, In r new -> every_condition_works df cf pc r) /\ every_rule_works df cf pc new.
Proof.
  intros H. destruct (irep_pos _ _ _ H) as (new & E1 & E2 & POS). exists new. split; auto.
  destruct (st_in ST) as [Ip Jn]. destruct (st_xgood ST) as ([_ Dc] & _ & ND & _). pose proof (st_spok ST) as OK.
  split.
  - intros r Ir. apply in_split in Ir. destruct Ir as (u & v & Es). apply useful_works.
    + eapply (gstep_useful (xsat x) (labels (frows n))) with (D := in_frame x); try exact (E2 u r v Es); auto.
      * apply (D_filter _ _ _ OK).
      * apply (sp_perm _ _ _ OK).
      * apply incl_refl.
    + destruct (POS u r v Es) as (i & I1 & I2). exists i. split; auto. apply Ip. apply filter_In in I1. tauto.
  - intros u r v Es. destruct (POS u r v Es) as (i & I1 & I2). apply filter_In in I1. destruct I1 as [I1 I3].
    assert (Ix : In i (labels (frows x))) by (apply Ip; auto).
    pose proof I2 as I2'. apply gsat_covers in I2; auto. apply (covers_label_df df cf x) in I2; [|apply (s_x _ _ _ _ _ _ _ _ _ _ ST)].
    destruct I2 as (rw & A1 & A2 & A3). exists rw. split; auto. split; [|split; auto].
    + apply in_map_iff in I1. destruct I1 as (rw' & L & I1). destruct (st_pn ST) as [Ep _]. rewrite Ep in I1. apply filter_In in I1. destruct I1 as [I1 C].
      assert (rw' = rw) as -> by (apply (NoDup_map_inj rlab (frows df)); auto; [apply (s_labels _ _ _ _ _ _ _ _ _ _ ST)|congruence]).
      destruct (s_good _ _ _ _ _ _ _ _ _ _ ST) as [_ D]. unfold cell_eq in C. destruct (cell (fcols df) cf rw) as [vv|] eqn:V; [|discriminate]. exists vv. split; [apply cell_value_at; auto|exact C].
    + intros s Is Ss. apply Bool.negb_true_iff in I3. rewrite <- A2 in *.
      assert (existsb (fun r0 => gsat (xsat x) r0 (rlab rw)) u = true); [|congruence].
      apply existsb_exists. exists s. split; auto. apply sat_back; auto.
      apply in_split in Is. destruct Is as (u1 & u2 & ->). rewrite <- app_assoc in Es. destruct (POS _ _ _ Es) as (j & J1 & J2). exists j. split; auto. apply Ip. apply filter_In in J1. tauto.
Qed.

(** RIPPER *)
Section CN.
Context (cn : catnap) (IX : is_index cn x).
Notation pos0 := (labels (frows p)). Notation neg0 := (labels (frows n)).
Lemma grow_cn_useful t init rs t' : ripper_grow_cn e h cn t init pos0 neg0 = Ok (rs, t') ->
  (forall r, In r init -> useful (lsat cn) neg0 (conds r)) -> forall r, In r rs -> useful (lsat cn) neg0 (conds r).
Proof.
  intros H K. destruct (idx_in ST cn IX) as [Ip In_]. destruct (st_in ST) as [Jp Jn]. pose proof (st_spok ST) as OK.
  pose proof (s_env _ _ _ _ _ _ _ _ _ _ ST) as Eo. pose proof (s_prune0 _ _ _ _ _ _ _ _ _ _ ST) as P0. pose proof (s_prune1 _ _ _ _ _ _ _ _ _ _ ST) as P1.
  apply ripper_grow_cn_run in H; auto. destruct H as (new & -> & _ & N). intros r I. apply in_app_iff in I. destruct I as [I|I]; auto.
  apply in_split in I. destruct I as (u & v & Q). specialize (N u r v Q).
  assert (D0 : in_frame x (grem (lsat cn) u neg0)) by (apply (D_filter _ _ _ OK); auto).
  eapply (gadded_useful (lsat cn) neg0) with (D := in_frame x); try exact N; auto.
  - apply (sp_perm _ _ _ OK).
  - apply grem_incl, incl_refl.
  - apply cn_prune_any.
Qed.
Lemma optimize_cn_useful t rs rs' t' : optimize_cn e h cn t rs pos0 neg0 = Ok (rs', t') ->
  (forall r, In r rs -> useful (lsat cn) neg0 (conds r)) -> forall r, In r rs' -> useful (lsat cn) neg0 (conds r).
Proof.
  intros H K. destruct (idx_in ST cn IX) as [Ip In_]. destruct (st_in ST) as [Jp Jn]. pose proof (st_spok ST) as OK.
  pose proof (s_env _ _ _ _ _ _ _ _ _ _ ST) as Eo. pose proof (s_prune0 _ _ _ _ _ _ _ _ _ _ ST) as P0. pose proof (s_prune1 _ _ _ _ _ _ _ _ _ _ ST) as P1.
  apply optimize_cn_run in H; auto. destruct H as [L N]. intros r I. apply In_nth_error in I. destruct I as [j J].
  destruct (nth_error rs j) as [r0|] eqn:N0; [|apply nth_error_None in N0; assert (j < length rs') by (apply nth_error_Some; congruence); lia].
  pose proof (K r0 (nth_error_In _ _ N0)) as K1. destruct (N j r0 r N0 J) as [->|S]; [auto|].
  eapply (gslot_useful (lsat cn) neg0) with (D := in_frame x); try exact S; auto.
  - apply (D_filter _ _ _ OK).
  - apply (sp_perm _ _ _ OK).
  - apply incl_refl.
Qed.
End CN.
Section DF.
Notation pos0 := (frows p'). Notation neg0 := (frows n').
Lemma grow_df_useful poss t init pos neg rs t' : incl neg neg0 -> NoDup (labels pos) -> NoDup (labels neg) ->
  ripper_grow e h (fcols x) poss t init pos neg = Ok (rs, t') ->
  (forall r, In r init -> useful (rsat (fcols x)) neg0 (conds r)) -> forall r, In r rs -> useful (rsat (fcols x)) neg0 (conds r).
Proof.
  pose proof (s_env _ _ _ _ _ _ _ _ _ _ ST) as Eo. pose proof (s_prune0 _ _ _ _ _ _ _ _ _ _ ST) as P0. pose proof (s_prune1 _ _ _ _ _ _ _ _ _ _ ST) as P1.
  intros IP Np Nn H K. apply ripper_grow_run in H; auto. destruct H as (new & -> & _ & N). intros r I. apply in_app_iff in I. destruct I as [I|I]; auto.
  apply in_split in I. destruct I as (u & v & Q). specialize (N u r v Q).
  assert (D0 : NoDup (labels (grem (rsat (fcols x)) u neg))) by (apply NoDup_map_filter; auto).
  eapply (gadded_useful (rsat (fcols x)) neg0) with (D := fun l => NoDup (labels l)); try exact N; auto.
  - apply (df_perm ST).
  - apply grem_incl; auto.
  - apply df_prune_any.
Qed.
Lemma optimize_df_useful poss t rs rs' t' : optimize e h (fcols x) poss t rs pos0 neg0 = Ok (rs', t') ->
  (forall r, In r rs -> useful (rsat (fcols x)) neg0 (conds r)) -> forall r, In r rs' -> useful (rsat (fcols x)) neg0 (conds r).
Proof.
  pose proof (s_env _ _ _ _ _ _ _ _ _ _ ST) as Eo. pose proof (s_prune0 _ _ _ _ _ _ _ _ _ _ ST) as P0. pose proof (s_prune1 _ _ _ _ _ _ _ _ _ _ ST) as P1.
  intros H K. destruct (st_nodup' ST) as [N1 N2]. apply optimize_run in H; auto. destruct H as [L N]. intros r I. apply In_nth_error in I. destruct I as [j J].
  destruct (nth_error rs j) as [r0|] eqn:N0; [|apply nth_error_None in N0; assert (j < length rs') by (apply nth_error_Some; congruence); lia].
  pose proof (K r0 (nth_error_In _ _ N0)) as K1. destruct (N j r0 r N0 J) as [->|S]; [auto|].
  eapply (gslot_useful (rsat (fcols x)) neg0) with (D := fun l => NoDup (labels l)); try exact S; auto.
  - intros q l. apply NoDup_map_filter.
  - apply (df_perm ST).
  - apply incl_refl.
Qed.
End DF.
Lemma useful_cn cn cs : is_index cn x -> useful (lsat cn) (labels (frows n)) cs -> useful (xsat x) (labels (frows n)) cs.
Proof.
  intros IX U a c b Q. destruct (U a c b Q) as (i & I1 & I2 & I3). destruct (st_xgood ST) as ([_ Dc] & _ & ND & _). destruct (st_in ST) as [_ Jn].
  exists i. split; auto. rewrite (xsat_cn cn x) by auto. split; auto. rewrite forallb_forall in *. intros d Id. rewrite (xsat_cn cn x) by auto. auto.
Qed.
Lemma useful_df cs : useful (rsat (fcols x)) (frows n') cs -> useful (xsat x) (labels (frows n)) cs.
Proof.
  intros U a c b Q. destruct (U a c b Q) as (rw & I1 & I2 & I3). destruct (st_xgood ST) as ([_ Dc] & _ & ND & _). destruct (st_rows ST) as [_ (R1 & R2 & R3)].
  exists (rlab rw). split; [rewrite <- R3; apply in_map; auto|]. rewrite xsat_row by auto. split; auto.
  rewrite forallb_forall in *. intros d Id. rewrite xsat_row by auto. auto.
Qed.
Lemma ripper_works cnopt rs r : ripper_train e h cnopt df cf pc (Ruleset_ []) = Ok rs -> In r (rs_rules rs) -> every_condition_works df cf pc r.
Proof.
  intros H. destruct (st_xgood ST) as ([_ Dc] & _ & ND & _). destruct (st_in ST) as [Jp Jn]. destruct cnopt.
  - destruct (ripper_train_cn_stages ST _ rs H) as (cn & rs1 & t1 & rs2 & t2 & rs3 & t3 & rs4 & q & C & S1 & S2 & S3 & S4 & ->). cbn [rs_rules Ruleset_] in *.
    destruct (st_index ST) as (cn' & C' & IX & _). assert (cn' = cn) by congruence. subst cn'. intros I.
    set (P := fun l => forall r, In r l -> fine_cn (p := p) cn r /\ useful (lsat cn) (labels (frows n)) (conds r)).
    assert (B1 : P rs1). { intros s Is. split; [eapply (grow_cn_fine ST); eauto; intros ? []|eapply grow_cn_useful; eauto; intros ? []]. }
    apply optimize_iter_inv with (P := P) in S2; auto.
    2:{ intros t a b t' La Hab s Is. split; [eapply (optimize_cn_fine ST); eauto; apply La|eapply optimize_cn_useful; eauto; apply La]. }
    assert (B3 : P rs3).
    { unfold cover_remaining_cn in S3. destruct (1 <=? _); [|injection S3 as <- _; auto]. intros s Is.
      split; [eapply (grow_cn_fine ST); eauto; apply S2|eapply grow_cn_useful; eauto; apply S2]. }
    apply best_subset_run in S4. destruct S4 as [S4 _].
    assert (FU : fine_cn (p := p) cn r /\ useful (lsat cn) (labels (frows n)) (conds r)).
    { revert r I. apply (sublist_Forall (fun r => fine_cn (p := p) cn r /\ useful (lsat cn) (labels (frows n)) (conds r)) _ _ S4). exact B3. }
    destruct FU as [[_ (i & I1 & I2)] U]. apply useful_works; [eapply useful_cn; eauto|]. exists i. split; auto.
    unfold gsat in *. rewrite forallb_forall in *. intros c Ic. rewrite (xsat_cn cn x) by auto. auto.
  - destruct (ripper_train_df_stages ST _ rs H) as (rs1 & t1 & rs2 & t2 & rs3 & poss3 & t3 & rs4 & q & S1 & S2 & S3 & S4 & ->). cbn [rs_rules Ruleset_] in *.
    destruct (st_nodup' ST) as [N1 N2]. intros I.
    set (P := fun l => forall r, In r l -> fine_df (x := x) (p' := p') r /\ useful (rsat (fcols x)) (frows n') (conds r)).
    assert (B1 : P rs1). { intros s Is. split; [refine (grow_df_fine ST _ _ _ _ _ _ _ (incl_refl _) N1 N2 S1 _ _ Is)|refine (grow_df_useful _ _ _ _ _ _ _ (incl_refl _) N1 N2 S1 _ _ Is)]; intros ? []. }
    apply optimize_iter_inv with (P := P) in S2; auto.
    2:{ intros t a b t' La Hab s Is. split; [eapply (optimize_df_fine ST); eauto; apply La|eapply optimize_df_useful; eauto; apply La]. }
    assert (B3 : P rs3).
    { unfold cover_remaining in S3. destruct (1 <=? _); [|injection S3 as <- _ _; auto]. intros s Is.
      binv S3. destruct v as [rs' t']. injection S3 as -> _ _.
      split; [eapply (grow_df_fine ST); try exact E|eapply grow_df_useful; try exact E]; auto; try (apply NoDup_map_filter; auto); try apply S2;
      unfold drop_labels; intros a A; apply filter_In in A; tauto. }
    apply best_subset_run in S4. destruct S4 as [S4 _].
    assert (FU : fine_df (x := x) (p' := p') r /\ useful (rsat (fcols x)) (frows n') (conds r)).
    { revert r I. apply (sublist_Forall (fun r => fine_df (x := x) (p' := p') r /\ useful (rsat (fcols x)) (frows n') (conds r)) _ _ S4). exact B3. }
    destruct FU as [[_ (rw & I1 & I2)] U]. apply useful_works; [apply useful_df; auto|]. destruct (st_rows ST) as [(R1 & R2 & R3) _].
    exists (rlab rw). split; [apply in_map; auto|]. unfold gsat in *. rewrite forallb_forall in *. intros c Ic. rewrite xsat_row by auto. auto.
Qed.
End S.
