(** * Fires.v : every rule the learners make fires on a positive training example and tests no feature twice *)
From Verif Require Export RipperStages FiresSpec.
From Coq Require Import Lqa.
Open Scope nat_scope.

Lemma single_prefix l b : single (l ++ b) -> single l.
Proof. intros H a c m d t ->. apply (H a c m d (t ++ b)). rewrite <- app_assoc. cbn. rewrite <- app_assoc. reflexivity. Qed.
Lemma single_snoc l d : single l -> (forall c, In c l -> py_eq (cfeat c) (cfeat d) = false) -> single (l ++ [d]).
Proof.
  intros H K a c m d' t E. destruct t as [|t0 t _] using rev_ind.
  - assert (E' : l ++ [d] = (a ++ c :: m) ++ [d']) by (rewrite E, <- app_assoc; reflexivity). apply app_inj_tail in E'. destruct E' as [-> ->].
    apply K. apply in_app_iff. cbn. auto.
  - assert (E' : l ++ [d] = (a ++ c :: m ++ d' :: t) ++ [t0]) by (rewrite E, <- !app_assoc; cbn; rewrite <- !app_assoc; reflexivity). apply app_inj_tail in E'. destruct E' as [-> _].
    eapply H. reflexivity.
Qed.
Lemma single_nil : single []. Proof. intros [|? ?] ? ? ? ? E; discriminate. Qed.

Section G.
Context {E : Type} (cs : cond -> E -> bool) (dom : E -> Prop)
  (compat : forall c d i, cond_eqb c d = true -> cs c i = cs d i)
  (one : forall c d i, dom i -> py_eq (cfeat c) (cfeat d) = true -> cs c i = true -> cs d i = true -> cond_eqb c d = true).
Lemma chain_single cands pos neg mc ms r r1 : (forall i, In i pos -> dom i) -> gchain cs cands pos neg mc ms r r1 -> single (conds r) -> single (conds r1).
Proof.
  intros DM. induction 1 as [|r c r' N U G I P L C IH]; auto. intros S. apply IH. cbn [conds Rule_]. apply single_snoc; auto.
  intros d Id. destruct (py_eq (cfeat d) (cfeat c)) eqn:Q; auto. exfalso.
  destruct (gcov cs (Rule_ (conds r ++ [c])) pos) as [|i l] eqn:GC; [congruence|].
  assert (Ii : In i (gcov cs (Rule_ (conds r ++ [c])) pos)) by (rewrite GC; left; auto). apply filter_In in Ii. destruct Ii as [Ip Si].
  unfold gsat in Si. cbn [conds Rule_] in Si. rewrite forallb_app, Bool.andb_true_iff, forallb_forall in Si. destruct Si as [S1 S2]. cbn [forallb] in S2. rewrite Bool.andb_true_r in S2.
  assert (EQ := one d c i (DM i Ip) Q (S1 d Id) S2).
  assert (H : gcov cs (Rule_ (conds r ++ [c])) neg = gcov cs r neg); [|rewrite H in L; lia].
  unfold gcov. apply filter_ext. intros j. unfold gsat. cbn [conds Rule_]. rewrite forallb_app. cbn [forallb]. rewrite Bool.andb_true_r, <- (compat d c j EQ).
  destruct (forallb (fun c0 => cs c0 j) (conds r)) eqn:F; auto. rewrite forallb_forall in F. rewrite (F d Id). reflexivity.
Qed.
Lemma grow_single cands pos neg mc ms fuel r g : (forall i, In i pos -> dom i) -> ggrow cs fuel cands pos neg mc ms r = Ok g -> single (conds r) -> single (conds g).
Proof.
  intros DM H S. apply ggrow_spec in H. destruct H as (r1 & C & X). apply gexit_prefix in X. destruct X as [b B].
  apply single_prefix with b. rewrite <- B. eapply chain_single; eauto.
Qed.
Context (D : list E -> Prop) (cands : rule -> list cond) (sp : nat -> list E -> list E * list E) (h : hyper).
Context (Ddom : forall l, D l -> forall i, In i l -> dom i) (Df : forall p l, D l -> D (filter p l))
        (Dsp : forall t l a b, D l -> sp t l = (a, b) -> Permutation (a ++ b) l).
Lemma split_dom t l a b : D l -> sp t l = (a, b) -> forall i, In i a -> dom i.
Proof. intros Dl S i I. apply (Ddom l Dl). eapply Permutation_in; [exact (Dsp _ _ _ _ Dl S)|]. apply in_or_app; auto. Qed.
Lemma gadded_single prune pos neg r : D pos -> (forall pp np r s, prune pp np r = Ok (Some s) -> exists b, s = set_conds r b /\ Spec.prefix b (conds r) /\ (conds r <> [] -> b <> [])) ->
  gadded cs cands sp h prune pos neg r -> single (conds r).
Proof.
  intros Dp PRa (t & pg & pp & ng & np & g & S1 & _ & _ & G & _ & P). apply PRa in P. destruct P as (b & -> & [b' B] & _). cbn [conds set_conds].
  apply single_prefix with b'. rewrite <- B. eapply grow_single; [eapply split_dom; eauto|exact G|apply single_nil].
Qed.
Lemma gslot_single met orig pos neg i r r' : D pos -> single (conds r) -> gslot cs cands sp h met orig pos neg i r (Some r') -> single (conds r').
Proof.
  intros Dp S (t & pg & pp & ng & np & g & S1 & _ & _ & G & P). apply prune_rule_on_any in P. destruct P as (b & -> & [b' B] & _). cbn [conds set_conds].
  apply single_prefix with b'. rewrite <- B. assert (DM := split_dom _ _ _ _ (Df _ _ Dp) S1).
  destruct G as [G|G]; (eapply grow_single; [exact DM|exact G|auto using single_nil]).
Qed.
Lemma gstep_single init a pos neg r : D pos -> gstep cs cands sp h init a pos neg r -> single (conds r).
Proof.
  intros Dp H. apply gstep_prefix in H. destruct H as (t & pg & pp & ng & np & g & S1 & _ & _ & G & [b B]).
  apply single_prefix with b. rewrite <- B. eapply grow_single; [eapply split_dom; [|exact S1]; apply Df; auto|exact G|apply single_nil].
Qed.
End G.

(** ** Instances *)
Lemma cell_one cols c d rw : py_eq (cfeat c) (cfeat d) = true -> rsat cols c rw = true -> rsat cols d rw = true -> cond_eqb c d = true.
Proof.
  intros F. unfold rsat, cell_eq, cond_eqb. rewrite F. destruct (cell cols (cfeat c) rw) as [v|] eqn:C; [|discriminate].
  assert (cell cols (cfeat d) rw = Some v) as ->.
  { rewrite <- C. unfold cell. assert (P : forall l, col_pos l (cfeat d) = col_pos l (cfeat c)); [|rewrite P; reflexivity].
    intros l. induction l as [|a l IH]; auto. cbn [col_pos]. rewrite IH.
    assert (py_eq a (cfeat d) = py_eq a (cfeat c)) as ->; auto. rewrite (py_eq_sym a (cfeat d)), (py_eq_sym a (cfeat c)). symmetry. apply py_eq_rewrite. exact F. }
  intros A B. cbn [andb]. rewrite py_eq_sym in A. eapply py_eq_trans; eauto.
Qed.
Lemma lab_one x c d i : NoDup (labels (frows x)) -> In i (labels (frows x)) -> py_eq (cfeat c) (cfeat d) = true -> xsat x c i = true -> xsat x d i = true -> cond_eqb c d = true.
Proof.
  intros N I. apply in_map_iff in I. destruct I as (rw & <- & I). rewrite !xsat_row by auto. apply cell_one.
Qed.

Section S.
Context {e h df cf pc x p n p' n'} (ST : setting e h df cf pc x p n p' n').
Notation fires r := (exists rw, In rw (frows p) /\ sat_rule (fcols df) rw r).
Lemma label_fires r i : In i (labels (frows p)) -> covers_label x r i -> fires r.
Proof.
  intros I1 I2. apply (covers_label_df df cf x) in I2; [|apply (s_x _ _ _ _ _ _ _ _ _ _ ST)].
  destruct I2 as (rw & I3 & I4 & I5). exists rw. split; auto.
  apply in_map_iff in I1. destruct I1 as (rw' & L & I1).
  assert (In rw' (frows df)). { destruct (st_pn ST) as [Ep _]. rewrite Ep in I1. apply filter_In in I1. tauto. }
  assert (rw' = rw) as <-; auto. apply (NoDup_map_inj rlab (frows df)); auto; [apply (s_labels _ _ _ _ _ _ _ _ _ _ ST)|congruence].
Qed.
Lemma irep_single cnopt init rs : irep_train e h cnopt df cf pc init = Ok rs ->
  exists new, rs_rules rs = rs_rules init ++ new /\ forall r, In r new -> single (conds r) /\ fires r.
Proof.
  intros H. destruct (irep_train_run ST _ _ _ H) as (new & E1 & E2 & _). exists new. split; auto. intros r Ir.
  apply in_split in Ir. destruct Ir as (u & v & Es). specialize (E2 u r v Es).
  destruct (st_in ST) as [Ip _]. destruct (st_xgood ST) as ([_ Dc] & _ & ND & _). pose proof (st_spok ST) as OK. split.
  - eapply (gstep_single (xsat x) (fun i => In i (labels (frows x)))) with (D := in_frame x); try exact E2; auto.
    + apply xsat_compat.
    + intros c d i. apply lab_one; auto.
    + apply (D_filter _ _ _ OK).
    + apply (sp_perm _ _ _ OK).
  - destruct (gstep_pos _ _ _ _ _ OK _ _ _ _ _ Ip E2) as (i & I1 & I2). apply gsat_covers in I2; auto. eapply label_fires; eauto.
Qed.

(** RIPPER: the invariant of all stages *)
Section CN.
Context (cn : catnap) (IX : is_index cn x).
Notation pos0 := (labels (frows p)). Notation neg0 := (labels (frows n)).
Definition fine_cn (r : rule) : Prop := single (conds r) /\ exists i, In i pos0 /\ gsat (lsat cn) r i = true.
Lemma cn_one c d i : In i (labels (frows x)) -> py_eq (cfeat c) (cfeat d) = true -> lsat cn c i = true -> lsat cn d i = true -> cond_eqb c d = true.
Proof.
  intros I. destruct (st_xgood ST) as ([_ Dc] & _ & ND & _). rewrite <- !(xsat_cn cn x) by auto. apply lab_one; auto.
Qed.
Lemma grow_cn_fine t init rs t' : ripper_grow_cn e h cn t init pos0 neg0 = Ok (rs, t') -> (forall r, In r init -> fine_cn r) -> forall r, In r rs -> fine_cn r.
Proof.
  intros H K. destruct (idx_in ST cn IX) as [Ip In_]. destruct (st_in ST) as [Jp Jn]. pose proof (st_spok ST) as OK.
  pose proof (s_env _ _ _ _ _ _ _ _ _ _ ST) as Eo. pose proof (s_prune0 _ _ _ _ _ _ _ _ _ _ ST) as P0. pose proof (s_prune1 _ _ _ _ _ _ _ _ _ _ ST) as P1.
  apply ripper_grow_cn_run in H; auto. destruct H as (new & -> & _ & N). intros r I. apply in_app_iff in I. destruct I as [I|I]; auto.
  apply in_split in I. destruct I as (u & v & Q). specialize (N u r v Q).
  assert (D0 : in_frame x (grem (lsat cn) u pos0)) by (apply (D_filter _ _ _ OK); auto). split.
  - eapply (gadded_single (lsat cn) (fun i => In i (labels (frows x)))) with (D := in_frame x); try exact N; auto.
    + apply lsat_eqb.
    + apply cn_one.
    + apply (sp_perm _ _ _ OK).
    + apply cn_prune_any.
  - eapply (gadded_pos (lsat cn)) with (D := in_frame x) in N; auto.
    + destruct N as (_ & i & I1 & I2). exists i. split; auto. apply filter_In in I1. tauto.
    + apply (sp_perm _ _ _ OK).
    + apply cn_prune_any.
Qed.
Lemma optimize_cn_fine t rs rs' t' : optimize_cn e h cn t rs pos0 neg0 = Ok (rs', t') -> (forall r, In r rs -> fine_cn r) -> forall r, In r rs' -> fine_cn r.
Proof.
  intros H K. destruct (idx_in ST cn IX) as [Ip In_]. destruct (st_in ST) as [Jp Jn]. pose proof (st_spok ST) as OK.
  pose proof (s_env _ _ _ _ _ _ _ _ _ _ ST) as Eo. pose proof (s_prune0 _ _ _ _ _ _ _ _ _ _ ST) as P0. pose proof (s_prune1 _ _ _ _ _ _ _ _ _ _ ST) as P1.
  apply optimize_cn_run in H; auto. destruct H as [L N]. intros r I. apply In_nth_error in I. destruct I as [j J].
  destruct (nth_error rs j) as [r0|] eqn:N0; [|apply nth_error_None in N0; assert (j < length rs') by (apply nth_error_Some; congruence); lia].
  destruct (K r0 (nth_error_In _ _ N0)) as [K1 K2]. destruct (N j r0 r N0 J) as [->|S]; [split; auto|]. split.
  - eapply (gslot_single (lsat cn) (fun i => In i (labels (frows x)))) with (D := in_frame x); try exact S; auto.
    + apply lsat_eqb.
    + apply cn_one.
    + apply (D_filter _ _ _ OK).
    + apply (sp_perm _ _ _ OK).
  - eapply (gslot_pos (lsat cn)) with (D := in_frame x); try exact S; try exact (fun _ : list rule => Ok 0%Q); auto.
    + apply (D_filter _ _ _ OK).
    + apply (sp_perm _ _ _ OK).
Qed.
Lemma fine_cn_fires r : fine_cn r -> single (conds r) /\ fires r.
Proof.
  intros [S (i & I1 & I2)]. split; auto. destruct (st_in ST) as [Jp Jn]. destruct (st_xgood ST) as ([_ Dc] & _ & ND & _).
  eapply label_fires; eauto. apply gsat_covers; auto. unfold gsat in *. rewrite forallb_forall in *. intros c Ic. rewrite (xsat_cn cn x) by auto. auto.
Qed.
End CN.
Section DF.
Notation pos0 := (frows p'). Notation neg0 := (frows n').
Definition fine_df (r : rule) : Prop := single (conds r) /\ exists rw, In rw pos0 /\ gsat (rsat (fcols x)) r rw = true.
Lemma df_perm t l a b : NoDup (labels l) -> df_split e h t l = (a, b) -> Permutation (a ++ b) l.
Proof.
  pose proof (s_env _ _ _ _ _ _ _ _ _ _ ST) as Eo. pose proof (s_prune0 _ _ _ _ _ _ _ _ _ _ ST) as P0. pose proof (s_prune1 _ _ _ _ _ _ _ _ _ _ ST) as P1.
  intros N S. apply (df_split_spec e t (grow_size h) l a b); auto; unfold grow_size; lra.
Qed.
Lemma grow_df_fine poss t init pos neg rs t' : incl pos pos0 -> NoDup (labels pos) -> NoDup (labels neg) ->
  ripper_grow e h (fcols x) poss t init pos neg = Ok (rs, t') -> (forall r, In r init -> fine_df r) -> forall r, In r rs -> fine_df r.
Proof.
  pose proof (s_env _ _ _ _ _ _ _ _ _ _ ST) as Eo. pose proof (s_prune0 _ _ _ _ _ _ _ _ _ _ ST) as P0. pose proof (s_prune1 _ _ _ _ _ _ _ _ _ _ ST) as P1.
  intros IP Np Nn H K. apply ripper_grow_run in H; auto. destruct H as (new & -> & _ & N). intros r I. apply in_app_iff in I. destruct I as [I|I]; auto.
  apply in_split in I. destruct I as (u & v & Q). specialize (N u r v Q).
  assert (D0 : NoDup (labels (grem (rsat (fcols x)) u pos))) by (apply NoDup_map_filter; auto). split.
  - eapply (gadded_single (rsat (fcols x)) (fun _ => True)) with (D := fun l => NoDup (labels l)); try exact N; auto.
    + apply rsat_compat.
    + intros c d i _. apply cell_one.
    + apply df_perm.
    + apply df_prune_any.
  - eapply (gadded_pos (rsat (fcols x))) with (D := fun l => NoDup (labels l)) in N; auto.
    + destruct N as (_ & i & I1 & I2). exists i. split; auto. apply filter_In in I1. apply IP. tauto.
    + apply df_perm.
    + apply df_prune_any.
Qed.
Lemma optimize_df_fine poss t rs rs' t' : optimize e h (fcols x) poss t rs pos0 neg0 = Ok (rs', t') -> (forall r, In r rs -> fine_df r) -> forall r, In r rs' -> fine_df r.
Proof.
  pose proof (s_env _ _ _ _ _ _ _ _ _ _ ST) as Eo. pose proof (s_prune0 _ _ _ _ _ _ _ _ _ _ ST) as P0. pose proof (s_prune1 _ _ _ _ _ _ _ _ _ _ ST) as P1.
  intros H K. destruct (st_nodup' ST) as [N1 N2]. apply optimize_run in H; auto. destruct H as [L N]. intros r I. apply In_nth_error in I. destruct I as [j J].
  destruct (nth_error rs j) as [r0|] eqn:N0; [|apply nth_error_None in N0; assert (j < length rs') by (apply nth_error_Some; congruence); lia].
  destruct (K r0 (nth_error_In _ _ N0)) as [K1 K2]. destruct (N j r0 r N0 J) as [->|S]; [split; auto|]. split.
  - eapply (gslot_single (rsat (fcols x)) (fun _ => True)) with (D := fun l => NoDup (labels l)); try exact S; auto.
    + apply rsat_compat.
    + intros c d i _. apply cell_one.
    + intros q l. apply NoDup_map_filter.
    + apply df_perm.
  - eapply (gslot_pos (rsat (fcols x))) with (D := fun l => NoDup (labels l)); try exact S; try exact (fun _ : list rule => Ok 0%Q); auto.
    + intros q l. apply NoDup_map_filter.
    + apply df_perm.
Qed.
Lemma fine_df_fires r : fine_df r -> single (conds r) /\ fires r.
Proof.
  intros [S (rw & I1 & I2)]. split; auto. destruct (st_rows ST) as [(R1 & R2 & R3) _]. destruct (st_xgood ST) as ([_ Dc] & _ & ND & _).
  eapply label_fires; [rewrite <- R3; apply in_map; exact I1|]. exists rw. split; [apply R2; auto|]. split; auto. apply conds_sat_iff; auto.
Qed.
End DF.

Lemma ripper_fires cnopt rs r : ripper_train e h cnopt df cf pc (Ruleset_ []) = Ok rs -> In r (rs_rules rs) -> single (conds r) /\ fires r.
Proof.
  intros H. destruct cnopt.
  - destruct (ripper_train_cn_stages ST _ rs H) as (cn & rs1 & t1 & rs2 & t2 & rs3 & t3 & rs4 & q & C & S1 & S2 & S3 & S4 & ->). cbn [rs_rules Ruleset_] in *.
    destruct (st_index ST) as (cn' & C' & IX & _). assert (cn' = cn) by congruence. subst cn'. intros I. apply (fine_cn_fires cn IX).
    assert (B1 : forall r, In r rs1 -> fine_cn cn r) by (eapply grow_cn_fine; eauto; intros s []).
    apply optimize_iter_inv with (P := fun l => forall r, In r l -> fine_cn cn r) in S2; auto.
    2:{ intros t a b t' La Hab. eapply optimize_cn_fine; eauto. }
    assert (B3 : forall r, In r rs3 -> fine_cn cn r).
    { unfold cover_remaining_cn in S3. destruct (1 <=? _); [|injection S3 as <- _; auto]. eapply grow_cn_fine; eauto. }
    apply best_subset_run in S4. destruct S4 as [S4 _]. revert r I. apply (sublist_Forall (fine_cn cn) _ _ S4). auto.
  - destruct (ripper_train_df_stages ST _ rs H) as (rs1 & t1 & rs2 & t2 & rs3 & poss3 & t3 & rs4 & q & S1 & S2 & S3 & S4 & ->). cbn [rs_rules Ruleset_] in *.
    destruct (st_nodup' ST) as [N1 N2]. intros I. apply fine_df_fires.
    assert (B1 : forall r, In r rs1 -> fine_df r) by (refine (grow_df_fine _ _ _ _ _ _ _ (incl_refl _) N1 N2 S1 _); intros s []).
    apply optimize_iter_inv with (P := fun l => forall r, In r l -> fine_df r) in S2; auto.
    2:{ intros t a b t' La Hab. eapply optimize_df_fine; eauto. }
    assert (B3 : forall r, In r rs3 -> fine_df r).
    { unfold cover_remaining in S3. destruct (1 <=? _); [|injection S3 as <- _ _; auto].
      binv S3. destruct v as [rs' t']. injection S3 as -> _ _. eapply grow_df_fine; try exact E; auto; try (apply NoDup_map_filter; auto).
      unfold drop_labels. intros a A. apply filter_In in A. tauto. }
    apply best_subset_run in S4. destruct S4 as [S4 _]. revert r I. apply (sublist_Forall fine_df _ _ S4). auto.
Qed.
End S.
