(** * VerboseFacts.v : the printing versions against the silent ones (C59) *)
From Verif Require Export Verbose FitRun MetricsFacts.
Open Scope nat_scope.

(** a loud run against a silent one: the same, or one of the two printing errors, each only under its condition *)
Definition loud {A} (T O : Prop) (l q : res A) : Prop := l = q \/ (T /\ l = Err TypeError) \/ (O /\ l = Err OverflowError).
Lemma loud_refl {A} T O (a : res A) : loud T O a a. Proof. left; auto. Qed.
Lemma loud_eq {A} T O (a b : res A) : a = b -> loud T O a b. Proof. left; auto. Qed.
Lemma loud_bind {A B} T O (a b : res A) (f g : A -> res B) : loud T O a b -> (forall x, loud T O (f x) (g x)) -> loud T O (bind a f) (bind b g).
Proof.
  intros [->|[(t & ->)|(o & ->)]] H.
  - destruct b as [x|e]; [apply H|left; reflexivity].
  - right; left; split; auto.
  - right; right; split; auto.
Qed.
Lemma loud_same {A B} T O (a : res A) (f g : A -> res B) : (forall x, loud T O (f x) (g x)) -> loud T O (bind a f) (bind a g).
Proof. intros H. apply loud_bind; auto. apply loud_refl. Qed.
Lemma loud_weak {A} (T O T' O' : Prop) (a b : res A) : (T -> T') -> (O -> O') -> loud T O a b -> loud T' O' a b.
Proof. intros HT HO [?|[(? & ?)|(? & ?)]]; [left|right; left|right; right]; auto. Qed.
Lemma loud_none {A} (T O : Prop) (a b : res A) : ~ T -> ~ O -> loud T O a b -> a = b.
Proof. intros HT HO [?|[(? & ?)|(? & ?)]]; tauto. Qed.
Lemma say_finite v l : say v l Finite = Ok tt. Proof. unfold say. destruct (l <=? v); reflexivity. Qed.
Lemma say_bind {B} v l (k : unit -> res B) : bind (say v l Finite) k = k tt. Proof. rewrite say_finite; reflexivity. Qed.

Lemma best_scan_some {C} (g : C -> Q) cs b : best_scan g (Some b) cs <> None.
Proof. revert b. induction cs as [|c t IH]; intros [b bv]; cbn [best_scan]; [congruence|]. destruct (Qlt_b bv (g c)); apply IH. Qed.
Lemma best_scan_none {C} (g : C -> Q) cs : best_scan g None cs = None -> cs = [].
Proof. destruct cs as [|c t]; cbn [best_scan]; auto. intros H. exfalso. eapply best_scan_some; eauto. Qed.

Section Loud.
Variables (v : nat).
Let O5 (cn : catnap) : Prop := 5 <= v /\ cn_conds cn = [].

Lemma succ_cn_loud (T : Prop) cn r pos neg : loud T (O5 cn) (best_rule_successor_cn_v v cn r pos neg) (Ok (best_rule_successor_cn cn r pos neg)).
Proof.
  unfold best_rule_successor_cn_v, best_rule_successor_cn. cbn zeta.
  destruct (best_scan _ None (cn_conds cn)) as [[c g]|] eqn:E.
  - rewrite say_bind. left; reflexivity.
  - unfold say. destruct (5 <=? v) eqn:L; [|left; reflexivity]. right; right. split; [|reflexivity].
    split; [apply Nat.leb_le; auto|eapply best_scan_none; eauto].
Qed.
Lemma grow_cn_loud (T : Prop) cn pos neg mc ms : forall fuel r,
  loud T (O5 cn) (grow_loop_cn_v v fuel cn pos neg mc ms r) (grow_loop_cn fuel cn pos neg mc ms r).
Proof.
  induction fuel as [|k IH]; intros r; cbn [grow_loop_cn_v grow_loop_cn]; [apply loud_refl|]. cbn zeta.
  destruct (_ =? 0); [apply loud_refl|]. destruct (user_halt _ _ _ _ _); [apply loud_refl|].
  destruct (succ_cn_loud T cn r pos neg) as [E|[(t & E)|(o & E)]]; rewrite E; cbn [bind].
  - destruct (best_rule_successor_cn cn r pos neg); [apply IH|apply loud_refl].
  - right; left; auto.
  - right; right; auto.
Qed.
Lemma grow_rule_cn_loud (T : Prop) cn pos neg mc ms r : loud T (O5 cn) (grow_rule_cn_v v cn pos neg mc ms r) (grow_rule_cn cn pos neg mc ms r).
Proof. apply grow_cn_loud. Qed.
Lemma grow_rule_eq cols possible pos neg mc ms r : grow_rule_v v cols possible pos neg mc ms r = grow_rule cols possible pos neg mc ms r.
Proof.
  unfold grow_rule_v, grow_rule. generalize (S (length neg)) as fuel. intros fuel; revert r.
  induction fuel as [|k IH]; intros r; cbn [grow_loop_v grow_loop]; auto. cbn zeta.
  destruct (_ =? 0); auto. destruct (user_halt _ _ _ _ _); auto. unfold best_successor_v. cbn zeta. rewrite say_bind. cbn [bind].
  destruct (best_successor cols r possible pos neg); auto.
Qed.
Lemma prune_loop_loud (T O : Prop) metric r : (5 <= v -> (exists x, metric x = Ok None) -> T) -> forall n bv best,
  loud T O (prune_loop_v v metric r n bv best) (prune_loop metric r n bv best).
Proof.
  intros HT. induction n as [|n IH]; intros bv best; cbn [prune_loop_v prune_loop]; [apply loud_refl|]. cbn zeta.
  destruct (metric (set_conds r (firstn (S n) (conds r)))) as [[x|]|e] eqn:E; cbn [bind].
  - rewrite say_bind. destruct (Qle_bool bv x); apply IH.
  - unfold say. destruct (5 <=? v) eqn:L; [|left; reflexivity]. right; left. split; [|reflexivity].
    apply HT; [apply Nat.leb_le; auto|eauto].
  - apply loud_refl.
Qed.
Lemma prune_rule_loud (T O : Prop) metric r : (5 <= v -> (exists x, metric x = Ok None) -> T) -> loud T O (prune_rule_v v metric r) (prune_rule metric r).
Proof.
  intros HT. unfold prune_rule_v, prune_rule. destruct (rule_isempty r); [apply loud_refl|].
  apply loud_bind; [apply prune_loop_loud; auto|intros; apply loud_refl].
Qed.
Lemma prune_rule_eq metric r : (forall x, metric x <> Ok None) -> prune_rule_v v metric r = prune_rule metric r.
Proof. intros N. apply (loud_none False False); auto. apply prune_rule_loud. intros _ (x & E). exact (N x E). Qed.
Lemma prune_rule_on_loud (T O : Prop) metric i rs r : (5 <= v -> (exists x, metric x = Ok None) -> T) ->
  loud T O (prune_rule_on_v v metric i rs r) (prune_rule_on metric i rs r).
Proof.
  intros HT. unfold prune_rule_on_v, prune_rule_on. destruct (rule_isempty r); [apply loud_refl|]. destruct (nth_error rs i); [|apply loud_refl].
  destruct (negb _); [apply loud_refl|]. apply loud_bind; [apply prune_loop_loud; auto|intros; apply loud_refl].
Qed.
End Loud.

(** the same hyperparameters at another verbosity *)
Definition at_verbosity (h : hyper) (v : nat) : hyper := set_param h P_verbosity (VNat v).
Lemma irep_metric_some P N p n : irep_metric P N p n <> Ok None.
Proof. unfold irep_metric. destruct (_ =? 0); congruence. Qed.
Lemma ripper_metric_some p n : ripper_grow_metric p n <> Ok None.
Proof. unfold ripper_grow_metric. congruence. Qed.

Section Train.
Variables (e : env) (h : hyper) (v : nat).
Let hv := at_verbosity h v.
Let O5 (cn : catnap) : Prop := 5 <= v /\ cn_conds cn = [].

Lemma irep_cn_loud cn : forall fuel t rs pos neg, loud False (O5 cn) (irep_loop_cn_v fuel e hv cn t rs pos neg) (irep_loop_cn fuel e h cn t rs pos neg).
Proof.
  induction fuel as [|k IH]; intros t rs pos neg; cbn [irep_loop_cn_v irep_loop_cn]; [apply loud_refl|].
  destruct (length pos =? 0); [apply loud_refl|].
  change (h_max_rules hv) with (h_max_rules h). change (h_min_ruleset_samples hv) with (h_min_ruleset_samples h).
  change (h_max_total_conds hv) with (h_max_total_conds h). change (h_max_rule_conds hv) with (h_max_rule_conds h).
  change (h_min_rule_samples hv) with (h_min_rule_samples h). change (grow_size hv) with (grow_size h). change (prune_off hv) with (prune_off h).
  change (h_verbosity hv) with v.
  destruct (stop_early _ _ _ _ _ _ _); [apply loud_refl|].
  destruct (random_split e t (grow_size h) pos) as [pg pp]. destruct (random_split e (S t) (grow_size h) neg) as [ng np].
  apply loud_bind; [apply grow_rule_cn_loud|]. intros grown. destruct (prune_off h); [apply IH|].
  rewrite prune_rule_eq by (intros; apply irep_metric_some). apply loud_same. intros [pruned|]; [|apply loud_refl].
  destruct (bad_precision _); [apply loud_refl|]. destruct (rm_rule_covers_cn cn pruned pos neg). apply IH.
Qed.
Lemma irep_df_eq cols possible : forall fuel t rs pos neg, irep_loop_v fuel e hv cols possible t rs pos neg = irep_loop fuel e h cols possible t rs pos neg.
Proof.
  induction fuel as [|k IH]; intros t rs pos neg; cbn [irep_loop_v irep_loop]; auto.
  destruct (length pos =? 0); auto.
  change (h_max_rules hv) with (h_max_rules h). change (h_min_ruleset_samples hv) with (h_min_ruleset_samples h).
  change (h_max_total_conds hv) with (h_max_total_conds h). change (h_max_rule_conds hv) with (h_max_rule_conds h).
  change (h_min_rule_samples hv) with (h_min_rule_samples h). change (grow_size hv) with (grow_size h). change (prune_off hv) with (prune_off h).
  change (h_verbosity hv) with v.
  destruct (stop_early _ _ _ _ _ _ _); auto.
  destruct (df_shuffled_split e t (grow_size h) pos) as [pg pp]. destruct (df_shuffled_split e (S t) (grow_size h) neg) as [ng np].
  rewrite grow_rule_eq. destruct (grow_rule _ _ _ _ _ _ _) as [grown|]; auto. cbn [bind]. destruct (prune_off h); auto.
  rewrite prune_rule_eq by (intros; apply irep_metric_some). destruct (prune_rule _ grown) as [[pruned|]|]; auto. cbn [bind].
  destruct (bad_precision _); auto.
Qed.
(** no condition at all can be built from the training frame *)
Definition no_conditions (df : frame) (cf : pyval) : Prop := forall cn, cn_make df cf = Ok cn -> cn_conds cn = [].
Lemma irep_train_loud cnopt df cf pc init :
  loud False (5 <= v /\ cnopt = true /\ no_conditions df cf) (irep_train_v e hv cnopt df cf pc init) (irep_train e h cnopt df cf pc init).
Proof.
  unfold irep_train_v, irep_train. destruct cnopt.
  - destruct (cn_make df cf) as [cn|] eqn:E; [|apply loud_refl]. cbn [bind]. apply loud_same. intros [p n].
    apply loud_bind; [|intros [rs t]; apply loud_refl].
    eapply loud_weak; [| |apply irep_cn_loud]; auto. intros (L & C). split; auto. split; auto. intros cn' E'. congruence.
  - apply loud_same. intros [p n]. apply loud_same. intros p'. apply loud_same. intros n'. left. unfold irep_grow_v, irep_grow.
    rewrite irep_df_eq. reflexivity.
Qed.

Lemma ripper_cn_loud (T : Prop) cn pos0 neg0 : forall fuel t rs st diff pos neg,
  loud T (O5 cn) (ripper_loop_cn_v fuel e hv cn pos0 neg0 t rs st diff pos neg) (ripper_loop_cn fuel e h cn pos0 neg0 t rs st diff pos neg).
Proof.
  induction fuel as [|k IH]; intros t rs st diff pos neg; cbn [ripper_loop_cn_v ripper_loop_cn]; [apply loud_refl|].
  change (h_dl hv) with (h_dl h).
  destruct (_ || _); [apply loud_refl|].
  change (h_max_rules hv) with (h_max_rules h). change (h_min_ruleset_samples hv) with (h_min_ruleset_samples h).
  change (h_max_total_conds hv) with (h_max_total_conds h). change (h_max_rule_conds hv) with (h_max_rule_conds h).
  change (h_min_rule_samples hv) with (h_min_rule_samples h). change (grow_size hv) with (grow_size h). change (prune_off hv) with (prune_off h).
  change (h_verbosity hv) with v.
  destruct (stop_early _ _ _ _ _ _ _); [apply loud_refl|].
  destruct (random_split e t (grow_size h) pos) as [pg pp]. destruct (random_split e (S t) (grow_size h) neg) as [ng np].
  destruct (length pg =? 0); [apply loud_refl|].
  apply loud_bind; [apply grow_rule_cn_loud|]. intros grown. destruct (rule_isempty grown); [apply loud_refl|].
  rewrite prune_rule_eq by (intros; apply ripper_metric_some). apply loud_same. intros [pruned|]; [|apply loud_refl].
  apply loud_same. intros [st' diff']. rewrite say_bind. destruct (rm_rule_covers_cn cn pruned pos neg). apply IH.
Qed.
Lemma ripper_df_eq cols possible pos0 neg0 : forall fuel t rs st diff pos neg,
  ripper_loop_v fuel e hv cols possible pos0 neg0 t rs st diff pos neg = ripper_loop fuel e h cols possible pos0 neg0 t rs st diff pos neg.
Proof.
  induction fuel as [|k IH]; intros t rs st diff pos neg; cbn [ripper_loop_v ripper_loop]; auto.
  change (h_dl hv) with (h_dl h).
  destruct (_ || _); auto.
  change (h_max_rules hv) with (h_max_rules h). change (h_min_ruleset_samples hv) with (h_min_ruleset_samples h).
  change (h_max_total_conds hv) with (h_max_total_conds h). change (h_max_rule_conds hv) with (h_max_rule_conds h).
  change (h_min_rule_samples hv) with (h_min_rule_samples h). change (grow_size hv) with (grow_size h).
  change (h_verbosity hv) with v.
  destruct (stop_early _ _ _ _ _ _ _); auto.
  destruct (df_shuffled_split e t (grow_size h) pos) as [pg pp]. destruct (df_shuffled_split e (S t) (grow_size h) neg) as [ng np].
  destruct (length pg =? 0); auto. rewrite grow_rule_eq. destruct (grow_rule _ _ _ _ _ _ _) as [grown|]; auto. cbn [bind].
  destruct (rule_isempty grown); auto.
  rewrite prune_rule_eq by (intros; apply ripper_metric_some). destruct (prune_rule _ grown) as [[pruned|]|]; auto. cbn [bind].
  destruct (dl_update _ _ _ _ _ _) as [[st' diff']|]; auto. cbn [bind]. rewrite say_bind. apply IH.
Qed.
(** the pruning sets are never empty: no pruning value is None *)
Definition splits_ok : Prop := env_ok e /\ (0 <= grow_size h)%Q /\ (grow_size h < 1)%Q.
Lemma accuracy_none P N p n : accuracy_metric P N p n = Ok None -> P = 0.
Proof. unfold accuracy_metric. destruct (_ =? 0) eqn:Z; [|discriminate]. intros _. apply Nat.eqb_eq in Z. lia. Qed.
Lemma length_nil {A} (l : list A) : length l = 0 -> l = [].
Proof. destruct l; [reflexivity|discriminate]. Qed.
Lemma optimize_cn_loud cn : forall todo orig dl pos0 neg0 t i new pos neg,
  loud (5 <= v /\ ~ splits_ok) (O5 cn) (optimize_loop_cn_v e hv cn orig dl pos0 neg0 t i todo new pos neg) (optimize_loop_cn e h cn orig dl pos0 neg0 t i todo new pos neg).
Proof.
  induction todo as [|r rest IH]; intros orig dl pos0 neg0 t i new pos neg; cbn [optimize_loop_cn_v optimize_loop_cn]; [apply loud_refl|].
  change (h_min_rule_samples hv) with (h_min_rule_samples h). change (grow_size hv) with (grow_size h). change (h_verbosity hv) with v.
  destruct (random_split e t (grow_size h) pos) as [pg pp] eqn:S1. destruct (random_split e (S t) (grow_size h) neg) as [ng np].
  destruct (length pg =? 0) eqn:LG; [apply loud_refl|]. change (stop_early_opt hv) with (stop_early_opt h). apply loud_same. intros [|]; [apply loud_refl|].
  assert (HT : 5 <= v -> length pp = 0 -> 5 <= v /\ ~ splits_ok).
  { intros L P0. split; auto. intros (O & G0 & G1). apply length_nil in P0. revert P0. eapply random_split_second; [exact O|exact G0|exact G1| |exact S1].
    intros ->. destruct (random_split_incl _ _ _ _ _ _ O G0 (Qlt_le_weak _ _ G1) S1) as [I _]. destruct pg as [|x pg]; [discriminate|]. exact (I x (or_introl eq_refl)). }
  cbn zeta. apply loud_bind; [apply grow_rule_cn_loud|]. intros g1.
  apply loud_bind; [apply prune_rule_on_loud; intros L (x & Ex); apply accuracy_none in Ex; auto|]. intros p1.
  apply loud_bind; [apply grow_rule_cn_loud|]. intros g2.
  apply loud_bind; [apply prune_rule_on_loud; intros L (x & Ex); apply accuracy_none in Ex; auto|]. intros p2.
  apply loud_same. intros d1. apply loud_same. intros d2. rewrite say_bind. apply loud_same. intros new'.
  destruct (rm_rule_covers_cn cn r pos neg) as [pos' neg']. destruct (length pos' =? 0); [apply loud_refl|apply IH].
Qed.
Lemma drop_labels_nodup l ls : NoDup (labels l) -> NoDup (labels (drop_labels l ls)).
Proof.
  unfold drop_labels, labels. induction l as [|a l IH]; cbn [map filter]; auto. intros H. inversion H; subst.
  destruct (negb _); auto. cbn [map]. constructor; auto. intros I. apply in_map_iff in I. destruct I as (x & E & I). apply filter_In in I. apply H2.
  rewrite <- E. apply in_map. tauto.
Qed.
Lemma optimize_df_loud (D : Prop) cols possible : forall todo orig dl pos0 neg0 t i new pos neg, (D -> NoDup (labels pos)) ->
  loud (5 <= v /\ ~ (splits_ok /\ D)) False (optimize_loop_v e hv cols possible orig dl pos0 neg0 t i todo new pos neg) (optimize_loop e h cols possible orig dl pos0 neg0 t i todo new pos neg).
Proof.
  induction todo as [|r rest IH]; intros orig dl pos0 neg0 t i new pos neg ND; cbn [optimize_loop_v optimize_loop]; [apply loud_refl|].
  change (h_min_rule_samples hv) with (h_min_rule_samples h). change (grow_size hv) with (grow_size h). change (h_verbosity hv) with v.
  destruct (df_shuffled_split e t (grow_size h) pos) as [pg pp] eqn:S1. destruct (df_shuffled_split e (S t) (grow_size h) neg) as [ng np].
  destruct (length pg =? 0) eqn:LG; [apply loud_refl|]. change (stop_early_opt hv) with (stop_early_opt h). apply loud_same. intros [|]; [apply loud_refl|].
  assert (HT : 5 <= v -> length pp = 0 -> 5 <= v /\ ~ (splits_ok /\ D)).
  { intros L P0. split; auto. intros ((O & G0 & G1) & d). apply length_nil in P0. revert P0. eapply df_split_second; [exact O|exact G0|exact G1|exact (ND d)| |exact S1].
    intros ->. destruct (df_split_spec _ _ _ _ _ _ O G0 (Qlt_le_weak _ _ G1) (ND d) S1) as [P _]. apply Permutation_length in P. rewrite app_length in P.
    apply Nat.eqb_neq in LG. cbn [length] in P. lia. }
  cbn zeta. rewrite grow_rule_eq. apply loud_same. intros g1.
  apply loud_bind; [apply prune_rule_on_loud; intros L (x & Ex); apply accuracy_none in Ex; auto|]. intros p1.
  rewrite grow_rule_eq. apply loud_same. intros g2.
  apply loud_bind; [apply prune_rule_on_loud; intros L (x & Ex); apply accuracy_none in Ex; auto|]. intros p2.
  apply loud_same. intros d1. apply loud_same. intros d2. rewrite say_bind. apply loud_same. intros new'.
  destruct (length (drop_labels _ _) =? 0); [apply loud_refl|apply IH]. intros d. apply drop_labels_nodup; auto.
Qed.
(** the same for a computation that also leaves something behind when it raises *)
Definition loud2 {A B} (T O : Prop) (l q : A * res B) : Prop := l = q \/ (T /\ snd l = Err TypeError) \/ (O /\ snd l = Err OverflowError).
Lemma loud2_refl {A B} T O (a : A * res B) : loud2 T O a a. Proof. left; auto. Qed.
Lemma optimize_trace_loud (T O : Prop) pass pass' : (forall t rs, loud T O (pass t rs) (pass' t rs)) -> forall k t rs,
  loud2 T O (optimize_trace pass k t rs) (optimize_trace pass' k t rs).
Proof.
  intros H. induction k as [|k IH]; intros t rs; cbn [optimize_trace]; [apply loud2_refl|].
  destruct (H t rs) as [->|[(W & ->)|(W & ->)]]; [|right; left; auto|right; right; auto].
  destruct (pass' t rs) as [[new t']|]; [|apply loud2_refl]. destruct (_ && _); [apply loud2_refl|apply IH].
Qed.
Lemma ripper_stages_loud (T O : Prop) uncov possible pass pass' k regrow cover cover' subset rs1 t1 :
  (forall t rs, loud T O (pass t rs) (pass' t rs)) -> (forall t rs, loud T O (cover t rs) (cover' t rs)) ->
  loud2 T O (ripper_stages uncov possible pass k regrow cover subset rs1 t1) (ripper_stages uncov possible pass' k regrow cover' subset rs1 t1).
Proof.
  intros HP HC. unfold ripper_stages.
  destruct (optimize_trace_loud T O pass pass' HP k t1 rs1) as [->|[(W & E)|(W & E)]].
  2:{ destruct (optimize_trace pass k t1 rs1) as [rs2 o]; cbn [snd] in E; subst o; right; left; auto. }
  2:{ destruct (optimize_trace pass k t1 rs1) as [rs2 o]; cbn [snd] in E; subst o; right; right; auto. }
  destruct (optimize_trace pass' k t1 rs1) as [rs2 [t2|er]]; [|apply loud2_refl].
  destruct (HC t2 rs2) as [->|[(W & ->)|(W & ->)]]; [apply loud2_refl|right; left; auto|right; right; auto].
Qed.
(** stage 1, then the others *)
Lemma start_loud {A B D} (T O : Prop) (a b : res A) (f g : A -> option D * res B) : loud T O a b -> (forall x, b = Ok x -> loud2 T O (f x) (g x)) ->
  loud2 T O (match a with Ok x => f x | Err er => (None, Err er) end) (match b with Ok x => g x | Err er => (None, Err er) end).
Proof.
  intros [->|[(W & ->)|(W & ->)]] H; [|right; left; auto|right; right; auto]. destruct b as [x|]; [auto|apply loud2_refl].
Qed.
Lemma ripper_trace_loud cnopt df cf pc init :
  loud2 (5 <= v /\ ~ (splits_ok /\ NoDup (labels (frows df)))) (5 <= v /\ cnopt = true /\ no_conditions df cf) (ripper_trace_v e hv cnopt df cf pc init) (ripper_trace e h cnopt df cf pc init).
Proof.
  unfold ripper_trace_v, ripper_trace. destruct cnopt.
  - destruct (cn_make df cf) as [cn|] eqn:E; [|apply loud2_refl]. cbn [bind]. destruct (pos_neg_split df cf pc) as [[p n]|]; [|apply loud2_refl]. cbn [bind].
    assert (W : O5 cn -> 5 <= v /\ true = true /\ no_conditions df cf).
    { intros (L & C). split; auto. split; auto. intros cn' E'. congruence. }
    apply start_loud.
    { apply loud_bind; [eapply loud_weak; [| |apply (ripper_cn_loud False)]; auto; tauto|]. intros [rs1 t1]. apply loud_refl. }
    intros [[[[cn' pos] neg] rs1] t1] EQ. binv EQ. destruct v0 as [rs1' t1']. injection EQ as <- <- <- <- <-.
    apply ripper_stages_loud.
    + intros t rs. unfold optimize_cn_v, optimize_cn. apply loud_same. intros [? dl].
      apply loud_bind; [eapply loud_weak; [| |apply optimize_cn_loud]; auto; tauto|]. intros [new t']. apply loud_refl.
    + intros t rs. apply loud_bind; [|intros [rs3 t3]; apply loud_refl].
      unfold cover_remaining_cn_v, cover_remaining_cn. destruct (1 <=? _); [|apply loud_refl].
      eapply loud_weak; [| |apply (ripper_cn_loud False)]; auto; tauto.
  - destruct (pos_neg_split df cf pc) as [[p n]|] eqn:SP; [|apply loud2_refl]. cbn [bind].
    destruct (drop_col p cf) as [p'|] eqn:DP; [|apply loud2_refl]. cbn [bind]. destruct (drop_col n cf) as [n'|]; [|apply loud2_refl]. cbn [bind]. cbn zeta.
    assert (ND : NoDup (labels (frows df)) -> NoDup (labels (frows p'))).
    { intros H. replace (labels (frows p')) with (labels (pos_rows df cf pc)).
      - unfold pos_rows, labels in *. revert H. generalize (frows df). induction l as [|a l IH]; cbn [map filter]; auto. intros H. inversion H; subst.
        destruct (cell_eq _ _ _ _); auto. cbn [map]. constructor; auto. intros I. apply in_map_iff in I. destruct I as (x & E & I). apply filter_In in I. apply H2.
        rewrite <- E. apply in_map. tauto.
      - unfold pos_neg_split in SP. destruct (has_col df cf); [|discriminate]. injection SP as <- <-. unfold drop_col in DP. destruct (col_pos _ cf); [|discriminate].
        injection DP as <-. unfold labels. cbn [frows]. rewrite map_map. reflexivity. }
    apply start_loud.
    { unfold ripper_grow_v. rewrite ripper_df_eq. apply loud_refl. }
    intros [[[[[cols possible] pos] neg] rs1] t1] EQ. binv EQ. destruct v0 as [rs1' t1']. injection EQ as <- <- <- <- <- <-.
    apply ripper_stages_loud.
    + intros t rs. unfold optimize_v, optimize. apply loud_same. intros [? dl].
      apply loud_bind; [eapply loud_weak; [| |apply (optimize_df_loud (NoDup (labels (frows df)))); exact ND]; auto; tauto|]. intros [new t']. apply loud_refl.
    + intros t rs. left. unfold cover_remaining_v, cover_remaining. cbn zeta. destruct (1 <=? _); auto. unfold ripper_grow_v, ripper_grow. rewrite ripper_df_eq. reflexivity.
Qed.
End Train.

(** ** fit *)
(** the same classifier at another verbosity *)
Definition clf_at (cl : clf) (v : nat) : clf := set_hyper cl (at_verbosity (c_hyper cl) v).
(** outcome pairs: the same result and the same attributes apart from verbosity, or a printing error *)
Definition loud_fit (T O : Prop) (v : nat) (l q : clf * res unit) : Prop :=
  (snd l = snd q /\ fst l = clf_at (fst q) v) \/ (T /\ snd l = Err TypeError) \/ (O /\ snd l = Err OverflowError).
Lemma loud_fit_same T O v c o c' : c' = clf_at c v -> loud_fit T O v (c', o) (c, o). Proof. intros ->. left; auto. Qed.
Lemma recalibrate_at cl v X y names ms rq d : clf_recalibrate (clf_at cl v) X y names ms rq d =
  (clf_at (fst (clf_recalibrate cl X y names ms rq d)) v, snd (clf_recalibrate cl X y names ms rq d)).
Proof.
  unfold clf_recalibrate. cbn [clf_at set_hyper c_cf c_pc c_bt c_rs c_hyper]. destruct (c_cf cl) as [f|]; [|reflexivity]. destruct (c_pc cl) as [p|]; [|reflexivity].
  destruct (if d then _ else _) as [bt|]; [|reflexivity]. destruct (preprocess_recalibrate X y f names bt) as [df|]; [|reflexivity].
  destruct (c_rs cl) as [x|]; [|reflexivity]. change (h_alpha (at_verbosity (c_hyper cl) v)) with (h_alpha (c_hyper cl)).
  destruct (recalibrate_run _ _ _ _ _) as [x' o]. reflexivity.
Qed.
Lemma irep_fit_loud w cl v X y cf pc names init cnopt :
  loud_fit False (5 <= v /\ cnopt = true /\ exists df f p bt, preprocess_training (w_cut w) (h_nbins (c_hyper cl)) X y cf pc names = Ok (df, f, p, bt) /\ no_conditions df f) v
    (irep_fit_v w (clf_at cl v) X y cf pc names init cnopt) (irep_fit w cl X y cf pc names init cnopt).
Proof.
  unfold irep_fit_v, irep_fit. cbn zeta. destruct (irep_start init) as [x0|er]; [|apply loud_fit_same; reflexivity].
  change (h_nbins (c_hyper (clf_at cl v))) with (h_nbins (c_hyper cl)).
  destruct (preprocess_training (w_cut w) (h_nbins (c_hyper cl)) X y cf pc names) as [[[[df f] p] bt]|er] eqn:EP; [|apply loud_fit_same; reflexivity].
  assert (L : loud False (5 <= v /\ cnopt = true /\ no_conditions df f)
    (x <- frommodel init ;; irep_train_v (w_env w) (c_hyper (clf_at cl v)) cnopt df f p x) (x <- frommodel init ;; irep_train (w_env w) (c_hyper cl) cnopt df f p x)).
  { apply loud_same. intros x. apply irep_train_loud. }
  destruct L as [E|[([] & _)|((A & B & C) & E)]].
  2:{ right; right. rewrite E. split; [|reflexivity]. split; auto. split; auto. exists df, f, p, bt. auto. }
  rewrite E. clear E. destruct (bind (frommodel init) _) as [x1|er]; [|apply loud_fit_same; reflexivity].
  destruct (cols_without df f) as [feats|er]; [|apply loud_fit_same; reflexivity].
  change (set_feats (set_rs (set_data (set_rs (clf_at cl v) x0) f p bt) x1) (selected_features (rs_rules x1)) feats)
    with (clf_at (set_feats (set_rs (set_data (set_rs cl x0) f p bt) x1) (selected_features (rs_rules x1)) feats) v).
  rewrite recalibrate_at. destruct (clf_recalibrate _ _ _ _ _ _ _) as [cl5 o]. cbn [fst snd].
  destruct o as [[]|er]; [|apply loud_fit_same; reflexivity].
  change (c_rs (set_classes (clf_at cl5 v) [PInt 0; PInt 1])) with (c_rs (set_classes cl5 [PInt 0; PInt 1])).
  destruct (c_rs (set_classes cl5 [PInt 0; PInt 1])) as [x2|]; apply loud_fit_same; reflexivity.
Qed.
Lemma ripper_fit_loud w cl v X y cf pc names init cnopt :
  loud_fit (5 <= v /\ exists df f p bt, preprocess_training (w_cut w) (h_nbins (c_hyper cl)) X y cf pc names = Ok (df, f, p, bt) /\
      ~ (splits_ok (w_env w) (c_hyper cl) /\ NoDup (labels (frows df))))
    (5 <= v /\ cnopt = true /\ exists df f p bt, preprocess_training (w_cut w) (h_nbins (c_hyper cl)) X y cf pc names = Ok (df, f, p, bt) /\ no_conditions df f) v
    (ripper_fit_v w (clf_at cl v) X y cf pc names init cnopt) (ripper_fit w cl X y cf pc names init cnopt).
Proof.
  unfold ripper_fit_v, ripper_fit. cbn zeta.
  change (h_nbins (c_hyper (clf_at cl v))) with (h_nbins (c_hyper cl)).
  destruct (preprocess_training (w_cut w) (h_nbins (c_hyper cl)) X y cf pc names) as [[[[df f] p] bt]|er] eqn:EP; [|apply loud_fit_same; reflexivity].
  assert (L : loud2 (5 <= v /\ ~ (splits_ok (w_env w) (c_hyper cl) /\ NoDup (labels (frows df)))) (5 <= v /\ cnopt = true /\ no_conditions df f)
    (match frommodel init with Ok x => ripper_trace_v (w_env w) (c_hyper (clf_at cl v)) cnopt df f p x | Err er => (None, Err er) end)
    (match frommodel init with Ok x => ripper_trace (w_env w) (c_hyper cl) cnopt df f p x | Err er => (None, Err er) end)).
  { destruct (frommodel init) as [x|]; [apply ripper_trace_loud|apply loud2_refl]. }
  destruct L as [E|[((A & B) & E)|((A & B & C) & E)]].
  2,3: revert E; match goal with |- snd ?q = _ -> _ => destruct q as [lf o] end; cbn [snd]; intros ->.
  2:{ right; left. split; [|reflexivity]. split; auto. exists df, f, p, bt. auto. }
  2:{ right; right. split; [|reflexivity]. split; auto. split; auto. exists df, f, p, bt. auto. }
  rewrite E. clear E. match goal with |- context [match ?q with (_, _) => _ end] => destruct q as [lf [x1|er]] end;
    [|apply loud_fit_same; destruct lf; reflexivity].
  destruct (cols_without df f) as [feats|er]; [|apply loud_fit_same; reflexivity].
  change (dedupe_trim (w_env w) (c_hyper (clf_at cl v)) x1) with (dedupe_trim (w_env w) (c_hyper cl) x1).
  change (set_rs (set_feats (set_rs (set_data (clf_at cl v) f p bt) x1) (selected_features (rs_rules x1)) feats) (dedupe_trim (w_env w) (c_hyper cl) x1))
    with (clf_at (set_rs (set_feats (set_rs (set_data cl f p bt) x1) (selected_features (rs_rules x1)) feats) (dedupe_trim (w_env w) (c_hyper cl) x1)) v).
  rewrite recalibrate_at. destruct (clf_recalibrate _ _ _ _ _ _ _) as [cl5 o]. cbn [fst snd].
  destruct o as [[]|er]; apply loud_fit_same; reflexivity.
Qed.

Lemma set_param_at h v p q : p <> P_verbosity -> set_param (at_verbosity h v) p q = at_verbosity (set_param h p q) v.
Proof. intros N. destruct p; destruct q; try reflexivity; congruence. Qed.
Lemma set_params_at v kw : ~ In P_verbosity (map fst kw) -> forall h,
  fold_left (fun h pv => set_param h (fst pv) (snd pv)) kw (at_verbosity h v) = at_verbosity (fold_left (fun h pv => set_param h (fst pv) (snd pv)) kw h) v.
Proof.
  induction kw as [|[p q] t IH]; intros N h; cbn [fold_left]; auto. cbn [map fst In] in N. cbn [fst snd].
  rewrite set_param_at by tauto. apply IH. tauto.
Qed.
Lemma set_fit_at cl v kw : ~ In P_verbosity (map fst kw) -> set_fit_params (clf_at cl v) kw = clf_at (set_fit_params cl kw) v.
Proof.
  intros N. unfold set_fit_params, set_params. change (valid_params (c_alg (clf_at cl v))) with (valid_params (c_alg cl)).
  change (c_hyper (clf_at cl v)) with (at_verbosity (c_hyper cl) v). rewrite set_params_at; [reflexivity|].
  intros I. apply N. apply in_map_iff in I. destruct I as (x & E & I). apply filter_In in I. rewrite <- E. apply in_map. tauto.
Qed.
(** the hyperparameters in force during the fit *)
Lemma fit_loud w cl v X y cf pc names init cnopt kw : ~ In P_verbosity (map fst kw) ->
  loud_fit (5 <= v /\ c_alg cl = RIPPER_ /\ exists df f p bt, preprocess_training (w_cut w) (h_nbins (hyper_of cl kw)) X y cf pc names = Ok (df, f, p, bt) /\
      ~ (splits_ok (w_env w) (hyper_of cl kw) /\ NoDup (labels (frows df))))
    (5 <= v /\ cnopt = true /\ exists df f p bt, preprocess_training (w_cut w) (h_nbins (hyper_of cl kw)) X y cf pc names = Ok (df, f, p, bt) /\ no_conditions df f) v
    (fit_v w (clf_at cl v) X y cf pc names init cnopt kw) (fit w cl X y cf pc names init cnopt kw).
Proof.
  intros N. unfold fit_v, fit. change (c_alg (clf_at cl v)) with (c_alg cl). rewrite set_fit_at by auto.
  destruct (c_alg cl) eqn:EA.
  - destruct (irep_start init) as [x0|er]; [|apply loud_fit_same; reflexivity].
    destruct (irep_fit_loud w (set_fit_params cl kw) v X y cf pc names init cnopt) as [H|[([] & _)|(H & H')]]; [left; auto|right; right; auto].
  - destruct (ripper_fit_loud w (set_fit_params cl kw) v X y cf pc names init cnopt) as [H|[(H & H')|(H & H')]]; [left; auto|right; left; destruct H; auto|right; right; auto].
Qed.
