(** * RipperStages.v : all of RIPPER's training, both engines *)
From Verif Require Export RipperTrain.
From Coq Require Import Lqa.
Open Scope nat_scope.

Lemma sublist_length {A} (a b : list A) : sublist a b -> length a <= length b.
Proof. induction 1; cbn; lia. Qed.
Lemma nth_error_Forall2_conds (P : cond -> Prop) (a b : list rule) : length a = length b ->
  (forall j r r' c, nth_error a j = Some r -> nth_error b j = Some r' -> In c (conds r') -> In c (conds r) \/ P c) ->
  (forall r c, In r a -> In c (conds r) -> P c) -> forall r c, In r b -> In c (conds r) -> P c.
Proof.
  intros L H A r c I Ic. apply In_nth_error in I. destruct I as [j J].
  destruct (nth_error a j) as [r0|] eqn:N.
  - destruct (H j r0 r c N J Ic) as [K|K]; auto. eapply A; eauto. eapply nth_error_In; eauto.
  - exfalso. apply nth_error_None in N. assert (j < length b) by (apply nth_error_Some; congruence). lia.
Qed.
Lemma optimize_iter_inv (pass : nat -> list rule -> res (list rule * nat)) (P : list rule -> Prop) :
  (forall t rs rs' t', P rs -> pass t rs = Ok (rs', t') -> P rs') ->
  forall k t rs rs' t', P rs -> optimize_iter pass k t rs = Ok (rs', t') -> P rs'.
Proof.
  intros H. induction k as [|k IH]; intros t rs rs' t' HP E; cbn [optimize_iter] in E; [injection E as <- _; auto|].
  binv E. destruct v as [new t1]. destruct (_ && _); [injection E as <- _; auto|]. eapply IH; [|eauto]. eapply H; eauto.
Qed.
Lemma optimize_iter_total (pass : nat -> list rule -> res (list rule * nat)) (P : list rule -> Prop) :
  (forall t rs, P rs -> exists rs' t', pass t rs = Ok (rs', t') /\ P rs') ->
  forall k t rs, P rs -> exists rs' t', optimize_iter pass k t rs = Ok (rs', t') /\ P rs'.
Proof.
  intros H. induction k as [|k IH]; intros t rs HP; cbn [optimize_iter]; [eauto|].
  destruct (H t rs HP) as (rs' & t' & -> & HP'). cbn [bind]. destruct (_ && _); eauto.
Qed.

(** ** Growing adds rules one at a time below max_rules *)
Definition below (m : option Z) (init rs : list rule) : Prop :=
  forall z, m = Some z -> (Z.of_nat (length rs) <= Z.max z (Z.of_nat (length init)))%Z.
Lemma new_below (P : list rule -> rule -> Prop) (m : option Z) (init new : list rule) :
  (forall u r v, new = u ++ r :: v -> P u r /\ ge_lim (length (init ++ u)) m = false) -> below m init (init ++ new).
Proof.
  intros H z M. destruct new as [|r u _] using rev_ind; [rewrite app_nil_r; lia|].
  destruct (H u r [] eq_refl) as [_ K]. rewrite M in K. cbn in K. apply Z.leb_gt in K. rewrite !app_length in *. cbn [length]. lia.
Qed.
Lemma new_all {X} (P : list X -> X -> Prop) (Q : X -> Prop) (new : list X) :
  (forall u r v, new = u ++ r :: v -> P u r) -> (forall u r, P u r -> Q r) -> forall r, In r new -> Q r.
Proof. intros H K r I. apply in_split in I. destruct I as (u & v & E). eauto. Qed.

Section CN.
Context (e : env) (h : hyper) (cn : catnap) (Eo : env_ok e) (P0 : (0 <= h_prune h)%Q) (P1 : (h_prune h <= 1)%Q).
Notation cadded := (gadded (lsat cn) (cn_cands cn) (cn_split e h) h (cn_prune h cn)).
Notation cslot := (gslot (lsat cn) (cn_cands cn) (cn_split e h) h (cn_met cn)).
Lemma ripper_grow_cn_run t init pos neg rs t' : incl pos (cn_all cn) -> incl neg (cn_all cn) ->
  ripper_grow_cn e h cn t init pos neg = Ok (rs, t') ->
  exists new, rs = init ++ new /\ below (h_max_rules h) init rs /\
    forall u r v, new = u ++ r :: v -> cadded (grem (lsat cn) u pos) (grem (lsat cn) u neg) r.
Proof.
  intros Ip In_ H. unfold ripper_grow_cn in H. rewrite ripper_loop_cn_g in H by auto. apply grip_run in H.
  destruct H as (new & -> & N). exists new. split; auto. split.
  - eapply new_below. exact N.
  - intros u r v Q. destruct (N u r v Q). auto.
Qed.
Lemma optimize_cn_run t rs pos neg rs' t' : incl pos (cn_all cn) -> incl neg (cn_all cn) ->
  optimize_cn e h cn t rs pos neg = Ok (rs', t') ->
  length rs' = length rs /\ forall j r r', nth_error rs j = Some r -> nth_error rs' j = Some r' -> r' = r \/ cslot rs pos neg j r (Some r').
Proof.
  intros Ip In_ H. unfold optimize_cn in H. binv H. destruct v as [k dl]. clear E. binv H. destruct v as [new t1]. rename E into G.
  binv H. injection H as <- <-. rewrite optimize_loop_cn_g in G by auto.
  eapply gpass_run; eauto.
Qed.
Definition cn_conds_ok (rs : list rule) : Prop := forall r c, In r rs -> In c (conds r) -> In c (cn_conds cn).
Lemma ripper_grow_cn_conds t init pos neg rs t' : incl pos (cn_all cn) -> incl neg (cn_all cn) ->
  ripper_grow_cn e h cn t init pos neg = Ok (rs, t') -> cn_conds_ok init -> cn_conds_ok rs.
Proof.
  intros Ip In_ H K. apply ripper_grow_cn_run in H; auto. destruct H as (new & -> & _ & N). intros r c I Ic.
  apply in_app_iff in I. destruct I as [I|I]; [eapply K; eauto|].
  apply in_split in I. destruct I as (u & v & Q). specialize (N u r v Q).
  destruct (gadded_conds _ _ _ _ _ (cn_prune_any h cn) _ _ _ c N Ic) as (s & S). exact S.
Qed.
Lemma optimize_cn_conds t rs pos neg rs' t' : incl pos (cn_all cn) -> incl neg (cn_all cn) ->
  optimize_cn e h cn t rs pos neg = Ok (rs', t') -> cn_conds_ok rs -> cn_conds_ok rs'.
Proof.
  intros Ip In_ H K. apply optimize_cn_run in H; auto. destruct H as [L N].
  intros r c I Ic. apply (nth_error_Forall2_conds (fun c => In c (cn_conds cn)) rs rs') with r; auto.
  intros j r0 r' c' J1 J2 I'. destruct (N j r0 r' J1 J2) as [->|S]; auto.
  destruct (gslot_conds _ _ _ _ _ _ _ _ _ _ _ c' S I') as [?|[s ?]]; auto.
Qed.
End CN.

Section DF.
Context (e : env) (h : hyper) (cols : list pyval).
Notation dadded p := (gadded (rsat cols) (df_cands p) (df_split e h) h (df_prune cols)).
Notation dslot p o := (gslot (rsat cols) (df_cands p) (df_split e h) h (df_met cols o)).
Lemma ripper_grow_run possible t init pos neg rs t' : NoDup (labels pos) -> NoDup (labels neg) ->
  ripper_grow e h cols possible t init pos neg = Ok (rs, t') ->
  exists new, rs = init ++ new /\ below (h_max_rules h) init rs /\
    forall u r v, new = u ++ r :: v -> dadded possible (grem (rsat cols) u pos) (grem (rsat cols) u neg) r.
Proof.
  intros Ip In_ H. unfold ripper_grow in H. rewrite ripper_loop_g in H by auto. apply grip_run in H.
  destruct H as (new & -> & N). exists new. split; auto. split.
  - eapply new_below. exact N.
  - intros u r v Q. destruct (N u r v Q). auto.
Qed.
Lemma optimize_run possible t rs pos neg rs' t' : NoDup (labels pos) -> NoDup (labels neg) ->
  optimize e h cols possible t rs pos neg = Ok (rs', t') ->
  length rs' = length rs /\ forall j r r', nth_error rs j = Some r -> nth_error rs' j = Some r' -> r' = r \/ dslot possible rs rs pos neg j r (Some r').
Proof.
  intros Ip In_ H. unfold optimize in H. binv H. destruct v as [k dl]. clear E. binv H. destruct v as [new t1]. rename E into G.
  binv H. injection H as <- <-. rewrite optimize_loop_g in G by auto. eapply gpass_run; eauto.
Qed.
Context (P : cond -> Prop).
Definition df_conds_ok (rs : list rule) : Prop := forall r c, In r rs -> In c (conds r) -> P c.
Lemma df_cands_In possible s c : In c (df_cands possible s) -> In c possible.
Proof. unfold df_cands. intros I. apply filter_In in I. tauto. Qed.
Lemma df_prune_any pp np r s : df_prune cols pp np r = Ok (Some s) -> exists b, s = set_conds r b /\ Spec.prefix b (conds r) /\ (conds r <> [] -> b <> []).
Proof. apply prune_rule_any. Qed.
Lemma ripper_grow_conds possible t init pos neg rs t' : NoDup (labels pos) -> NoDup (labels neg) -> (forall c, In c possible -> P c) ->
  ripper_grow e h cols possible t init pos neg = Ok (rs, t') -> df_conds_ok init -> df_conds_ok rs.
Proof.
  intros Ip In_ PP H K. apply ripper_grow_run in H; auto. destruct H as (new & -> & _ & N). intros r c I Ic.
  apply in_app_iff in I. destruct I as [I|I]; [eapply K; eauto|].
  apply in_split in I. destruct I as (u & v & Q). specialize (N u r v Q).
  destruct (gadded_conds _ _ _ _ _ df_prune_any _ _ _ c N Ic) as (s & S). apply df_cands_In in S. auto.
Qed.
Lemma optimize_conds possible t rs pos neg rs' t' : NoDup (labels pos) -> NoDup (labels neg) -> (forall c, In c possible -> P c) ->
  optimize e h cols possible t rs pos neg = Ok (rs', t') -> df_conds_ok rs -> df_conds_ok rs'.
Proof.
  intros Ip In_ PP H K. apply optimize_run in H; auto. destruct H as [L N].
  intros r c I Ic. apply (nth_error_Forall2_conds P rs rs') with r; auto.
  intros j r0 r' c' J1 J2 I'. destruct (N j r0 r' J1 J2) as [->|S]; auto.
  destruct (gslot_conds _ _ _ _ _ _ _ _ _ _ _ c' S I') as [?|[s S']]; auto. apply df_cands_In in S'. auto.
Qed.
End DF.

(** ** The whole training *)
Section S.
Context {e h df cf pc x p n p' n'} (ST : setting e h df cf pc x p n p' n').
Lemma st_index : exists cn, cn_make df cf = Ok cn /\ is_index cn x /\ good_frame x /\ NoDup (labels (frows x)) /\ labels (frows x) = labels (frows df).
Proof.
  destruct ST as [? ? ? G L X ? ? ?]. unfold cn_make. rewrite X. cbn [bind]. eexists. split; [reflexivity|].
  apply (index_setup df cf x); auto. unfold cn_make. rewrite X. reflexivity.
Qed.

(** the four stages, default engine *)
Lemma ripper_train_cn_stages init rs : ripper_train e h true df cf pc init = Ok rs ->
  exists cn rs1 t1 rs2 t2 rs3 t3 rs4 q, cn_make df cf = Ok cn /\
    ripper_grow_cn e h cn 0 (rs_rules init) (labels (frows p)) (labels (frows n)) = Ok (rs1, t1) /\
    optimize_iter (fun t r => optimize_cn e h cn t r (labels (frows p)) (labels (frows n))) (h_k h) t1 rs1 = Ok (rs2, t2) /\
    cover_remaining_cn e h cn t2 rs2 (labels (frows p)) (labels (frows n)) = Ok (rs3, t3) /\
    best_subset (cn_exc cn (labels (frows p)) (labels (frows n))) (length (cn_conds cn)) rs3 = Ok (rs4, q) /\ rs = Ruleset_ rs4.
Proof.
  unfold ripper_train. intros H. binv H. rename v into cn, E into E0. binv H. destruct v as [p1 n1]. rename E into E1.
  pose proof (s_split _ _ _ _ _ _ _ _ _ _ ST) as S. rewrite E1 in S. injection S as -> ->.
  binv H. destruct v as [rs1 t1]. rename E into E2. binv H. destruct v as [rs2 t2]. rename E into E3.
  binv H. destruct v as [rs3 t3]. rename E into E4. binv H. destruct v as [rs4 q]. injection H as <-.
  exists cn, rs1, t1, rs2, t2, rs3, t3, rs4, q. auto 10.
Qed.
Lemma ripper_train_df_stages init rs : ripper_train e h false df cf pc init = Ok rs ->
  exists rs1 t1 rs2 t2 rs3 poss3 t3 rs4 q,
    let poss := cand_conds e false x (old_possible init) p' n' in
    ripper_grow e h (fcols x) poss 0 (rs_rules init) (frows p') (frows n') = Ok (rs1, t1) /\
    optimize_iter (fun t r => optimize e h (fcols x) poss t r (frows p') (frows n')) (h_k h) t1 rs1 = Ok (rs2, t2) /\
    cover_remaining e h (fcols x) poss t2 rs2 (frows p') (frows n') = Ok (rs3, poss3, t3) /\
    best_subset (df_exc (fcols x) (frows p') (frows n')) (length poss3) rs3 = Ok (rs4, q) /\ rs = Ruleset_ rs4.
Proof.
  unfold ripper_train. intros H. binv H. destruct v as [p1 n1]. rename E into E1.
  pose proof (s_split _ _ _ _ _ _ _ _ _ _ ST) as S. rewrite E1 in S. injection S as -> ->.
  rewrite (s_p' _ _ _ _ _ _ _ _ _ _ ST), (s_n' _ _ _ _ _ _ _ _ _ _ ST) in H. cbn [bind] in H.
  destruct (st_rows ST) as [(R1 & _) _]. rewrite R1 in H.
  binv H. destruct v as [rs1 t1]. rename E into E2. binv H. destruct v as [rs2 t2]. rename E into E3.
  binv H. destruct v as [[rs3 poss3] t3]. rename E into E4. binv H. destruct v as [rs4 q]. injection H as <-.
  exists rs1, t1, rs2, t2, rs3, poss3, t3, rs4, q. unfold cand_conds. auto 10.
Qed.
Lemma idx_in cn : is_index cn x -> incl (labels (frows p)) (cn_all cn) /\ incl (labels (frows n)) (cn_all cn).
Proof. intros (_ & _ & ->). apply (st_in ST). Qed.
Lemma st_nodup' : NoDup (labels (frows p')) /\ NoDup (labels (frows n')).
Proof. destruct (st_rows ST) as [(_ & _ & ->) (_ & _ & ->)]. apply (st_nodup ST). Qed.

(** number of rules *)
Lemma below_trans m a b c : below m a b -> below m b c -> below m a c.
Proof. intros H K z M. specialize (H z M). specialize (K z M). lia. Qed.
Lemma below_le m a b c : below m a b -> length c <= length b -> below m a c.
Proof. intros H K z M. specialize (H z M). lia. Qed.
Lemma below_refl m a : below m a a. Proof. intros z M. lia. Qed.
Lemma ripper_train_count cnopt init rs : ripper_train e h cnopt df cf pc init = Ok rs -> below (h_max_rules h) (rs_rules init) (rs_rules rs).
Proof.
  intros H. pose proof (s_env _ _ _ _ _ _ _ _ _ _ ST) as Eo. pose proof (s_prune0 _ _ _ _ _ _ _ _ _ _ ST) as P0. pose proof (s_prune1 _ _ _ _ _ _ _ _ _ _ ST) as P1.
  destruct cnopt.
  - destruct (ripper_train_cn_stages init rs H) as (cn & rs1 & t1 & rs2 & t2 & rs3 & t3 & rs4 & q & C & S1 & S2 & S3 & S4 & ->). cbn [rs_rules Ruleset_].
    destruct st_index as (cn' & C' & IX & _). assert (cn' = cn) by congruence. subst cn'. destruct (idx_in cn IX) as [Ip In_].
    apply ripper_grow_cn_run in S1; auto. destruct S1 as (new & _ & B1 & _).
    apply optimize_iter_inv with (P := fun l => length l = length rs1) in S2; auto.
    2:{ intros t a b t' La Hab. apply optimize_cn_run in Hab; auto. destruct Hab. congruence. }
    assert (B3 : below (h_max_rules h) rs2 rs3).
    { unfold cover_remaining_cn in S3. destruct (1 <=? _); [|injection S3 as <- _; apply below_refl].
      apply ripper_grow_cn_run in S3; auto. destruct S3 as (new3 & _ & B3 & _). auto. }
    apply best_subset_run in S4. destruct S4 as [S4 _]. apply sublist_length in S4.
    apply below_le with rs3; auto. apply below_trans with rs2; auto. apply below_le with rs1; auto. lia.
  - destruct (ripper_train_df_stages init rs H) as (rs1 & t1 & rs2 & t2 & rs3 & poss3 & t3 & rs4 & q & S1 & S2 & S3 & S4 & ->). cbn [rs_rules Ruleset_].
    destruct st_nodup' as [N1 N2].
    apply ripper_grow_run in S1; auto. destruct S1 as (new & _ & B1 & _).
    apply optimize_iter_inv with (P := fun l => length l = length rs1) in S2; auto.
    2:{ intros t a b t' La Hab. apply optimize_run in Hab; auto. destruct Hab. congruence. }
    assert (B3 : below (h_max_rules h) rs2 rs3).
    { unfold cover_remaining in S3. destruct (1 <=? _); [|injection S3 as <- _ _; apply below_refl].
      binv S3. destruct v as [rs' t']. injection S3 as -> _ _.
      apply ripper_grow_run in E; try (apply NoDup_map_filter; auto). destruct E as (new3 & _ & B3 & _). auto. }
    apply best_subset_run in S4. destruct S4 as [S4 _]. apply sublist_length in S4.
    apply below_le with rs3; auto. apply below_trans with rs2; auto. apply below_le with rs1; auto. lia.
Qed.

(** conditions *)
Definition xdata (c : cond) : Prop := In (cfeat c) (fcols x) /\ exists rw, In rw (frows x) /\ cell (fcols x) (cfeat c) rw = Some (cval c).
Lemma xdata_from c : xdata c -> from_data df cf c.
Proof.
  intros (F & rw & Irw & Cv). destruct (st_xgood ST) as ([_ Dc] & _ & _ & NC & IC).
  split; [apply IC; auto|]. split.
  - destruct (py_eq (cfeat c) cf) eqn:Q; auto. exfalso. apply NC. exists (cfeat c). auto.
  - destruct (drop_col_value df cf x rw (s_x _ _ _ _ _ _ _ _ _ _ ST) Irw) as (rw0 & I0 & _ & V). exists rw0. split; auto.
    apply V. apply cell_value_at; auto.
Qed.
Lemma update_data old pr nr c : incl pr (frows x) -> (forall d, In d old -> xdata d) ->
  In c (update_possible_conds (set_order e) old (mkframe (fcols x) pr) (mkframe (fcols x) nr)) -> xdata c.
Proof.
  intros P O I. unfold update_possible_conds in I. apply in_app_iff in I. destruct I as [I|I]; auto.
  cbn [fcols] in I. apply in_flat_map in I. destruct I as (f & I1 & I2). apply in_map_iff in I2.
  destruct I2 as (v & <- & I2). cbn. split; auto.
  apply (Permutation_in _ (ok_set e (s_env _ _ _ _ _ _ _ _ _ _ ST) _)) in I2. unfold shared_values in I2. apply filter_In in I2. destruct I2 as [I2 _].
  apply unique_In, column_In in I2. destruct I2 as (rw & I3 & I4). exists rw. split; auto.
Qed.
Lemma ripper_train_conds cnopt rs r c : ripper_train e h cnopt df cf pc (Ruleset_ []) = Ok rs -> In r (rs_rules rs) -> In c (conds r) -> xdata c.
Proof.
  intros H. pose proof (s_env _ _ _ _ _ _ _ _ _ _ ST) as Eo. pose proof (s_prune0 _ _ _ _ _ _ _ _ _ _ ST) as P0. pose proof (s_prune1 _ _ _ _ _ _ _ _ _ _ ST) as P1.
  destruct cnopt.
  - destruct (ripper_train_cn_stages _ rs H) as (cn & rs1 & t1 & rs2 & t2 & rs3 & t3 & rs4 & q & C & S1 & S2 & S3 & S4 & ->). cbn [rs_rules Ruleset_] in *.
    destruct st_index as (cn' & C' & IX & _). assert (cn' = cn) by congruence. subst cn'. destruct (idx_in cn IX) as [Ip In_].
    apply ripper_grow_cn_conds in S1; auto; [|intros ? ? []].
    apply optimize_iter_inv with (P := cn_conds_ok cn) in S2; auto.
    2:{ intros t a b t' La Hab. eapply optimize_cn_conds in Hab; eauto. }
    assert (B3 : cn_conds_ok cn rs3).
    { unfold cover_remaining_cn in S3. destruct (1 <=? _); [|injection S3 as <- _; auto].
      eapply ripper_grow_cn_conds in S3; eauto. }
    apply best_subset_run in S4. destruct S4 as [S4 _]. intros Ir Ic.
    assert (K : In c (cn_conds cn)). { apply (B3 r c); auto. revert Ir. apply (sublist_Forall (fun a => In a rs3) _ _ S4); auto. }
    destruct IX as (I1 & _). rewrite I1 in K. apply (cand_data ST true c). exact K.
  - destruct (ripper_train_df_stages _ rs H) as (rs1 & t1 & rs2 & t2 & rs3 & poss3 & t3 & rs4 & q & S1 & S2 & S3 & S4 & ->). cbn [rs_rules Ruleset_] in *.
    destruct st_nodup' as [N1 N2]. destruct (st_rows ST) as [(R1 & R2 & _) (R3 & R4 & _)].
    assert (PX : forall d, In d (cand_conds e false x (old_possible (Ruleset_ [])) p' n') -> xdata d) by (intros d; apply (cand_data ST false)).
    apply ripper_grow_conds with (P := xdata) in S1; auto; [|intros ? ? []].
    apply optimize_iter_inv with (P := df_conds_ok xdata) in S2; auto.
    2:{ intros t a b t' La Hab. apply optimize_conds with (P := xdata) in Hab; auto. }
    assert (B3 : df_conds_ok xdata rs3).
    { unfold cover_remaining in S3. destruct (1 <=? _); [|injection S3 as <- _ _; auto].
      binv S3. destruct v as [rs' t']. injection S3 as -> _ _.
      apply ripper_grow_conds with (P := xdata) in E; auto; try (apply NoDup_map_filter; auto).
      intros d. apply update_data.
      - intros a A. apply R2. unfold drop_labels in A. apply filter_In in A. tauto.
      - destruct rs2; [intros ? []|exact PX]. }
    apply best_subset_run in S4. destruct S4 as [S4 _]. intros Ir Ic.
    apply (B3 r c); auto. revert Ir. apply (sublist_Forall (fun a => In a rs3) _ _ S4); auto.
Qed.

(** ** Totality of the default engine *)
Notation pos0 := (labels (frows p)). Notation neg0 := (labels (frows n)).
Lemma ripper_total_aux cn : is_index cn x ->
  (forall t rs, (forall r, In r rs -> rinv cn pos0 neg0 r) -> exists rs' t', ripper_grow_cn e h cn t rs pos0 neg0 = Ok (rs', t') /\ (forall r, In r rs' -> rinv cn pos0 neg0 r)) /\
  ((0 < h_prune h)%Q -> forall t rs, (forall r, In r rs -> rinv cn pos0 neg0 r) -> exists rs' t', optimize_cn e h cn t rs pos0 neg0 = Ok (rs', t') /\ (forall r, In r rs' -> rinv cn pos0 neg0 r)).
Proof.
  intros IX. pose proof (s_env _ _ _ _ _ _ _ _ _ _ ST) as Eo. pose proof (s_prune0 _ _ _ _ _ _ _ _ _ _ ST) as P0. pose proof (s_prune1 _ _ _ _ _ _ _ _ _ _ ST) as P1.
  destruct (idx_in cn IX) as [Ip In_]. destruct (st_in ST) as [Jp Jn]. destruct (st_xgood ST) as (Gx & _ & ND & _).
  pose proof (st_spok ST) as OK.
  assert (Df : forall q l, dpos x pos0 l -> dpos x pos0 (filter q l)).
  { intros q l [A B]. split; intros i I; apply filter_In in I; [apply A|apply B]; tauto. }
  assert (Df' : forall q l, dneg x neg0 l -> dneg x neg0 (filter q l)).
  { intros q l [A B]. split; intros i I; apply filter_In in I; [apply A|apply B]; tauto. }
  assert (Dsp : forall t l a b, in_frame x l -> cn_split e h t l = (a, b) -> Permutation (a ++ b) l).
  { intros t l a b A S. exact (sp_perm _ _ _ OK _ _ _ _ A S). }
  assert (Dspl : forall t l a b, dpos x pos0 l -> cn_split e h t l = (a, b) -> dpos x pos0 a /\ dpos x pos0 b).
  { intros t l a b [A B] S. pose proof (Dsp _ _ _ _ A S) as Q. destruct (perm_incl _ _ _ _ Q A), (perm_incl _ _ _ _ Q B). repeat split; auto. }
  assert (Dspl' : forall t l a b, dneg x neg0 l -> cn_split e h t l = (a, b) -> dneg x neg0 a /\ dneg x neg0 b).
  { intros t l a b [A B] S. pose proof (Dsp _ _ _ _ A S) as Q. destruct (perm_incl _ _ _ _ Q A), (perm_incl _ _ _ _ Q B). repeat split; auto. }
  assert (RB : forall r, rinv cn pos0 neg0 r -> Nat.max (length (conds r)) 1 < length (cn_conds cn)) by (intros r (_ & _ & ? & _); auto).
  assert (RN : forall pg ng mc g, dpos x pos0 pg -> dneg x neg0 ng -> pg <> [] ->
    ggrow (lsat cn) (S (length ng)) (cn_cands cn) pg ng mc (h_min_rule_samples h) (Rule_ []) = Ok g -> conds g <> [] -> rinv cn pos0 neg0 g).
  { intros pg ng mc g A B C G NE. eapply (grow_rinv x cn Gx ND IX pos0 neg0 pg ng mc _ (Rule_ []) g); eauto. }
  assert (RR : forall pg ng mc r g, dpos x pos0 pg -> dneg x neg0 ng -> pg <> [] -> rinv cn pos0 neg0 r ->
    ggrow (lsat cn) (S (length ng)) (cn_cands cn) pg ng mc (h_min_rule_samples h) r = Ok g -> rinv cn pos0 neg0 g).
  { intros pg ng mc r g A B C R G. eapply (grow_rinv x cn Gx ND IX pos0 neg0 pg ng mc _ r g); eauto. }
  assert (D0 : dpos x pos0 pos0) by (split; [auto|apply incl_refl]). assert (D1 : dneg x neg0 neg0) by (split; [auto|apply incl_refl]).
  assert (DL : forall rs, (forall r, In r rs -> rinv cn pos0 neg0 r) -> isOk (total_bits (cn_exc cn pos0 neg0) (length (cn_conds cn)) rs)).
  { intros rs R. apply total_bits_ok; auto. apply exceptions_ok; auto. }
  split; [intros t rs R|intros PL t rs R].
  - unfold ripper_grow_cn. rewrite ripper_loop_cn_g by auto.
    eapply (grip_total (lsat cn) (dpos x pos0) (dneg x neg0)); eauto.
    + intros t0 l a b [A _]. apply Dsp; auto.
    + apply cn_prune_any.
    + intros r b. apply rinv_prefix.
    + apply exceptions_ok.
    + apply cn_prune_total.
  - assert (OFF : prune_off h = false). { unfold prune_off. destruct (Qeq_bool (h_prune h) 0) eqn:Q; auto. apply Qeq_bool_eq in Q. rewrite Q in PL. discriminate. }
    unfold optimize_cn.
    destruct (best_subset_ok (fun y => exceptions_cn cn y pos0 neg0) (length (cn_conds cn)) rs) as (k & dl & ->).
    { auto. } { intros l L. apply exceptions_ok. intros r I. apply R. auto. }
    cbn [bind]. rewrite optimize_loop_cn_g by auto.
    destruct (gopt_total (lsat cn) (dpos x pos0) (dneg x neg0) (cn_cands cn) (cn_split e h) h
      (cn_met cn) (total_bits (cn_exc cn pos0 neg0) (length (cn_conds cn)))) with (rinv := rinv cn pos0 neg0) (orig := rs) (dl := dl) (todo := rs) (t := t) (i := 0) (rs := rs) (pos := pos0) (neg := neg0)
      as (rs' & t' & -> & R'); eauto.
    + intros r s. apply rinv_conds.
    + intros r b. apply rinv_prefix.
    + intros i pp np r NE. unfold cn_met. destruct (accuracy_metric_value (length pp) (length np) (length (gcov (lsat cn) r pp)) (length (gcov (lsat cn) r np))) as (q & Q1 & _ & Q2 & _).
      * destruct pp; [congruence|cbn; lia].
      * apply filter_length_le.
      * apply filter_length_le.
      * eauto.
    + intros t0 l a b [A _] NE S. eapply (sp_on _ _ _ OK); eauto. intros C. subst l. pose proof (Dsp _ _ _ _ A S) as Q.
      symmetry in Q. apply Permutation_nil in Q. apply app_eq_nil in Q. tauto.
    + cbn [bind]. rewrite force_map. cbn [bind]. eauto.
Qed.
Lemma ripper_total : ((0 < h_prune h)%Q \/ h_k h = 0) -> exists rs, ripper_train e h true df cf pc (Ruleset_ []) = Ok rs.
Proof.
  intros PK. destruct st_index as (cn & C & IX & _). destruct (ripper_total_aux cn IX) as [GR OP].
  unfold ripper_train. rewrite C. cbn [bind]. rewrite (s_split _ _ _ _ _ _ _ _ _ _ ST). cbn [bind rs_rules Ruleset_].
  destruct (GR 0 [] ltac:(intros ? [])) as (rs1 & t1 & -> & R1). cbn [bind].
  assert (IT : exists rs2 t2, optimize_iter (fun t r => optimize_cn e h cn t r pos0 neg0) (h_k h) t1 rs1 = Ok (rs2, t2) /\ forall r, In r rs2 -> rinv cn pos0 neg0 r).
  { destruct PK as [PL|K0]; [|rewrite K0; cbn [optimize_iter]; eauto].
    apply (optimize_iter_total (fun t r => optimize_cn e h cn t r pos0 neg0) (fun l => forall r, In r l -> rinv cn pos0 neg0 r)); auto. }
  destruct IT as (rs2 & t2 & -> & R2). cbn [bind].
  assert (X : exists rs3 t3, cover_remaining_cn e h cn t2 rs2 pos0 neg0 = Ok (rs3, t3) /\ forall r, In r rs3 -> rinv cn pos0 neg0 r).
  { unfold cover_remaining_cn. destruct (1 <=? _); eauto. }
  destruct X as (rs3 & t3 & -> & R3). cbn [bind].
  destruct (best_subset_ok (fun y => exceptions_cn cn y pos0 neg0) (length (cn_conds cn)) rs3) as (k & dl & ->).
  - intros r I. destruct (R3 r I) as (_ & _ & ? & _). auto.
  - intros l L. apply exceptions_ok. intros r I. apply R3; auto.
  - cbn [bind]. eauto.
Qed.
End S.
