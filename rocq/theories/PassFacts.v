(** * PassFacts.v : a pass that changes nothing, and what k can change at all *)
From Verif Require Export Passes FitRun.
From Verif Require Import BaseFacts ReproFacts.
Open Scope nat_scope.

(** ** a pass whose result is equal to its input as a set of rules returns its input *)
Definition foreign (orig : list rule) (new : list (option rule)) (i : nat) : Prop :=
  exists j o, j < i /\ nth_error new j = Some o /\ opt_in o (map Some orig) = false.
Lemma set_nth_same {A} (l : list A) : forall i x, nth_error l i = Some x -> set_nth i x l = l.
Proof. induction l as [|a l IH]; intros [|i] x H; try discriminate; cbn in *; [congruence|]. f_equal. auto. Qed.
Lemma set_nth_other {A} (l : list A) : forall i j x, i <> j -> nth_error (set_nth i x l) j = nth_error l j.
Proof. induction l as [|a l IH]; intros [|i] [|j] x H; cbn; auto; try congruence. Qed.
Lemma set_nth_at {A} (l : list A) : forall i x, i < length l -> nth_error (set_nth i x l) i = Some x.
Proof. induction l as [|a l IH]; intros [|i] x H; cbn in *; try lia; auto. apply IH. lia. Qed.
Lemma choose_kept orig r rep rv d0 d1 d2 i new new' : nth_error orig i = Some r -> choose_rule r rep rv d0 d1 d2 i new = Ok new' ->
  new = map Some orig \/ foreign orig new i -> new' = map Some orig \/ foreign orig new' (S i).
Proof.
  intros N H INV. unfold choose_rule in H. binv H. destruct (nth_error _ v) as [best|]; [|discriminate]. injection H as <-.
  destruct INV as [->|(j & o & J & O & F)].
  - destruct (opt_in best (map Some orig)) eqn:OI; [left; apply set_nth_same; rewrite nth_error_map, N; reflexivity|].
    right. exists i, best. split; [lia|]. split; auto. apply set_nth_at. rewrite map_length. apply nth_error_Some. congruence.
  - right. exists j, o. split; [lia|]. split; auto. rewrite set_nth_other by lia. exact O.
Qed.
Lemma foreign_S orig new i k : i <= k -> new = map Some orig \/ foreign orig new i -> new = map Some orig \/ foreign orig new k.
Proof. intros L [->|(j & o & J & O)]; auto. right. exists j, o. split; auto. lia. Qed.
Lemma skipn_S {A} (l : list A) : forall i r rest, skipn i l = r :: rest -> nth_error l i = Some r /\ skipn (S i) l = rest.
Proof. induction l as [|a l IH]; intros [|i] r rest H; try discriminate; [cbn in H; injection H as -> ->; auto|]. apply IH. exact H. Qed.
Lemma loop_cn_kept e h cn orig dl pos0 neg0 : forall todo t i new pos neg new' t', skipn i orig = todo ->
  optimize_loop_cn e h cn orig dl pos0 neg0 t i todo new pos neg = Ok (new', t') -> new = map Some orig \/ foreign orig new i -> exists k, new' = map Some orig \/ foreign orig new' k.
Proof.
  induction todo as [|r rest IH]; intros t i new pos neg new' t' SK H INV; cbn [optimize_loop_cn] in H; [injection H as <- _; eauto|].
  destruct (random_split _ _ _ pos) as [pg pp], (random_split _ _ _ neg) as [ng np]. destruct (length pg =? 0); [injection H as <- _; eauto|].
  binv H. destruct v; [injection H as <- _; eauto|]. do 7 binv H. destruct (rm_rule_covers_cn _ _ _ _) as [p' n'].
  destruct (skipn_S _ _ _ _ SK) as [N SK']. assert (INV' := choose_kept _ _ _ _ _ _ _ _ _ _ N E6 INV).
  destruct (length p' =? 0); [injection H as <- _; eauto|]. eapply IH; eauto.
Qed.
Lemma loop_kept e h cols poss orig dl pos0 neg0 : forall todo t i new pos neg new' t', skipn i orig = todo ->
  optimize_loop e h cols poss orig dl pos0 neg0 t i todo new pos neg = Ok (new', t') -> new = map Some orig \/ foreign orig new i -> exists k, new' = map Some orig \/ foreign orig new' k.
Proof.
  induction todo as [|r rest IH]; intros t i new pos neg new' t' SK H INV; cbn [optimize_loop] in H; [injection H as <- _; eauto|].
  destruct (df_shuffled_split _ _ _ pos) as [pg pp], (df_shuffled_split _ _ _ neg) as [ng np]. destruct (length pg =? 0); [injection H as <- _; eauto|].
  binv H. destruct v; [injection H as <- _; eauto|]. do 7 binv H. 
  destruct (skipn_S _ _ _ _ SK) as [N SK']. assert (INV' := choose_kept _ _ _ _ _ _ _ _ _ _ N E6 INV).
  cbv zeta in H. destruct (length _ =? 0); [injection H as <- _; eauto|]. eapply IH; eauto.
Qed.
Lemma force_some rs : force_rules (map Some rs) = Ok rs.
Proof. induction rs as [|r rs IH]; cbn [map force_rules]; auto. rewrite IH. reflexivity. Qed.
Lemma force_nth l : forall rs j o, force_rules l = Ok rs -> nth_error l j = Some o -> exists r, o = Some r /\ In r rs.
Proof.
  induction l as [|[x|] l IH]; intros rs j o H N; [destruct j; discriminate| |discriminate]. cbn [force_rules] in H. binv H. injection H as <-.
  destruct j as [|j]; [injection N as <-; exists x; split; [auto|left; auto]|]. destruct (IH _ _ _ E N) as (r & -> & I). exists r. split; [auto|right; auto].
Qed.
Lemma kept_equal orig new k rs : new = map Some orig \/ foreign orig new k -> force_rules new = Ok rs -> rs_eqb orig rs = true -> rs = orig.
Proof.
  intros [->|(j & o & _ & O & F)] FR EQ; [rewrite force_some in FR; injection FR as <-; reflexivity|]. exfalso.
  destruct (force_nth _ _ _ _ FR O) as (r & -> & I). unfold rs_eqb in EQ. apply andb_prop in EQ. destruct EQ as [_ EQ]. rewrite forallb_forall in EQ. specialize (EQ r I).
  unfold rule_in in EQ. apply existsb_exists in EQ. destruct EQ as (x & X & Q). unfold opt_in in F.
  apply Bool.not_true_iff_false in F. apply F. apply existsb_exists. exists (Some x). split; auto. apply in_map. auto.
Qed.
Definition fixed (pass : nat -> list rule -> res (list rule * nat)) : Prop := forall t rs new t', pass t rs = Ok (new, t') -> rs_eqb rs new = true -> new = rs.
Lemma optimize_cn_fixed e h cn pos neg : fixed (fun t rs => optimize_cn e h cn t rs pos neg).
Proof.
  intros t rs new t' H EQ. unfold optimize_cn in H. binv H. destruct v as [b dl]. binv H. destruct v as [nw t1]. binv H. injection H as <- _.
  destruct (loop_cn_kept _ _ _ _ _ _ _ rs t 0 _ _ _ _ _ eq_refl E0 (or_introl eq_refl)) as (k & K). eapply kept_equal; eauto.
Qed.
Lemma optimize_fixed e h cols poss pos neg : fixed (fun t rs => optimize e h cols poss t rs pos neg).
Proof.
  intros t rs new t' H EQ. unfold optimize in H. binv H. destruct v as [b dl]. binv H. destruct v as [nw t1]. binv H. injection H as <- _.
  destruct (loop_kept _ _ _ _ _ _ _ _ rs t 0 _ _ _ _ _ eq_refl E0 (or_introl eq_refl)) as (k & K). eapply kept_equal; eauto.
Qed.

(** ** the loop over the passes *)
Lemma halts_range pass : forall k iter t rs j, halts_at pass k iter t rs = Some j -> iter <= j /\ j + 1 < iter + k.
Proof.
  induction k as [|m IH]; intros iter t rs j H; cbn [halts_at] in H; [discriminate|]. destruct (pass t rs) as [[new t']|]; [|discriminate].
  destruct (negb (m =? 0) && rs_eqb rs new) eqn:B; [injection H as <-; apply andb_prop in B; destruct B as [B _]; apply Bool.negb_true_iff, Nat.eqb_neq in B; lia|].
  apply IH in H. lia.
Qed.
Lemma halts_final pass : fixed pass -> forall K iter t rs j, halts_at pass K iter t rs = Some j -> forall k, j < iter + k -> optimize_trace pass k t rs = optimize_trace pass K t rs.
Proof.
  intros FX. induction K as [|m IH]; intros iter t rs j H k L; cbn [halts_at] in H; [discriminate|]. destruct (pass t rs) as [[new t']|] eqn:P; [|discriminate].
  destruct (negb (m =? 0) && rs_eqb rs new) eqn:B.
  - injection H as <-. destruct k as [|k]; [lia|]. cbn [optimize_trace]. rewrite P, B. apply andb_prop in B. destruct B as [_ B]. rewrite B. assert (E := FX _ _ _ _ P B). subst new.
    destruct k as [|k]; reflexivity.
  - assert (RG := halts_range _ _ _ _ _ _ H). destruct k as [|k]; [lia|]. cbn [optimize_trace]. rewrite P, B.
    assert (BK : negb (k =? 0) && rs_eqb rs new = false).
    { apply Bool.andb_false_iff in B. destruct B as [B|B]; [|rewrite B; apply Bool.andb_false_r]. apply Bool.negb_false_iff, Nat.eqb_eq in B. subst m. discriminate. }
    rewrite BK. eapply IH; eauto. lia.
Qed.
Lemma halts_other pass : forall K iter t rs j, halts_at pass K iter t rs = Some j -> forall k, halts_at pass k iter t rs = if j + 1 <? iter + k then Some j else None.
Proof.
  induction K as [|m IH]; intros iter t rs j H k; cbn [halts_at] in H; [discriminate|]. destruct (pass t rs) as [[new t']|] eqn:P; [|discriminate].
  destruct (negb (m =? 0) && rs_eqb rs new) eqn:B.
  - injection H as <-. apply andb_prop in B. destruct B as [_ B]. destruct k as [|k]; cbn [halts_at]; [destruct (Nat.ltb_spec (iter + 1) (iter + 0)); [lia|reflexivity]|]. rewrite P, B.
    destruct k as [|k]; cbn [Nat.eqb negb andb halts_at]; [destruct (Nat.ltb_spec (iter + 1) (iter + 1)); [lia|reflexivity]|]. destruct (Nat.ltb_spec (iter + 1) (iter + S (S k))); [reflexivity|lia].
  - assert (RG := halts_range _ _ _ _ _ _ H). destruct k as [|k]; cbn [halts_at]; [destruct (Nat.ltb_spec (j + 1) (iter + 0)); [lia|reflexivity]|]. rewrite P.
    assert (BK : negb (k =? 0) && rs_eqb rs new = false).
    { apply Bool.andb_false_iff in B. destruct B as [B|B]; [|rewrite B; apply Bool.andb_false_r]. apply Bool.negb_false_iff, Nat.eqb_eq in B. subst m. discriminate. }
    rewrite BK, (IH _ _ _ _ H k). replace (S iter + k) with (iter + S k) by lia. reflexivity.
Qed.

(** ** everything but the number of passes is independent of k *)
Definition with_k (h : hyper) (k : nat) : hyper := set_param h P_k (VNat k).
Lemma loop_cn_k e h k cn pos0 neg0 : forall fuel t rs st diff pos neg, ripper_loop_cn fuel e (with_k h k) cn pos0 neg0 t rs st diff pos neg = ripper_loop_cn fuel e h cn pos0 neg0 t rs st diff pos neg.
Proof.
  induction fuel as [|n IH]; intros; [reflexivity|]. cbn [ripper_loop_cn].
  change (h_dl (with_k h k)) with (h_dl h). change (h_max_rules (with_k h k)) with (h_max_rules h). change (h_min_ruleset_samples (with_k h k)) with (h_min_ruleset_samples h). change (h_max_total_conds (with_k h k)) with (h_max_total_conds h).
  change (grow_size (with_k h k)) with (grow_size h). change (prune_off (with_k h k)) with (prune_off h). change (h_max_rule_conds (with_k h k)) with (h_max_rule_conds h). change (h_min_rule_samples (with_k h k)) with (h_min_rule_samples h).
  destruct (_ || _); auto. destruct (stop_early _ _ _ _ _ _ _); auto. destruct (random_split _ _ _ pos), (random_split _ _ _ neg). destruct (length l =? 0); auto.
  apply bind_same. intros g. destruct (rule_isempty g); auto. apply bind_same. intros [pr|]; auto. cbv zeta. apply bind_same. intros [st' d']. destruct (rm_rule_covers_cn _ _ _ _). apply IH.
Qed.
Lemma loop_k e h k cols poss pos0 neg0 : forall fuel t rs st diff pos neg, ripper_loop fuel e (with_k h k) cols poss pos0 neg0 t rs st diff pos neg = ripper_loop fuel e h cols poss pos0 neg0 t rs st diff pos neg.
Proof.
  induction fuel as [|n IH]; intros; [reflexivity|]. cbn [ripper_loop].
  change (h_dl (with_k h k)) with (h_dl h). change (h_max_rules (with_k h k)) with (h_max_rules h). change (h_min_ruleset_samples (with_k h k)) with (h_min_ruleset_samples h). change (h_max_total_conds (with_k h k)) with (h_max_total_conds h).
  change (grow_size (with_k h k)) with (grow_size h). change (h_max_rule_conds (with_k h k)) with (h_max_rule_conds h). change (h_min_rule_samples (with_k h k)) with (h_min_rule_samples h).
  destruct (_ || _); auto. destruct (stop_early _ _ _ _ _ _ _); auto. destruct (df_shuffled_split _ _ _ pos), (df_shuffled_split _ _ _ neg). destruct (length l =? 0); auto.
  apply bind_same. intros g. destruct (rule_isempty g); auto. apply bind_same. intros [pr|]; auto. cbv zeta. apply bind_same. intros [st' d']. apply IH.
Qed.
Lemma opt_loop_cn_k e h k cn orig dl pos0 neg0 : forall todo t i new pos neg,
  optimize_loop_cn e (with_k h k) cn orig dl pos0 neg0 t i todo new pos neg = optimize_loop_cn e h cn orig dl pos0 neg0 t i todo new pos neg.
Proof.
  induction todo as [|r rest IH]; intros; [reflexivity|]. cbn [optimize_loop_cn].
  change (grow_size (with_k h k)) with (grow_size h). change (h_min_rule_samples (with_k h k)) with (h_min_rule_samples h). change (stop_early_opt (with_k h k)) with (stop_early_opt h).
  destruct (random_split _ _ _ pos), (random_split _ _ _ neg). destruct (length l =? 0); auto. apply bind_same. intros [|]; auto. cbv zeta. do 7 (apply bind_same; intros ?).
  destruct (rm_rule_covers_cn _ _ _ _). destruct (length l3 =? 0); auto.
Qed.
Lemma opt_loop_k e h k cols poss orig dl pos0 neg0 : forall todo t i new pos neg,
  optimize_loop e (with_k h k) cols poss orig dl pos0 neg0 t i todo new pos neg = optimize_loop e h cols poss orig dl pos0 neg0 t i todo new pos neg.
Proof.
  induction todo as [|r rest IH]; intros; [reflexivity|]. cbn [optimize_loop].
  change (grow_size (with_k h k)) with (grow_size h). change (h_min_rule_samples (with_k h k)) with (h_min_rule_samples h). change (stop_early_opt (with_k h k)) with (stop_early_opt h).
  destruct (df_shuffled_split _ _ _ pos), (df_shuffled_split _ _ _ neg). destruct (length l =? 0); auto. apply bind_same. intros [|]; auto. cbv zeta. do 7 (apply bind_same; intros ?).
  destruct (length _ =? 0); auto.
Qed.
Lemma grow_cn_k e h k cn t init pos neg : ripper_grow_cn e (with_k h k) cn t init pos neg = ripper_grow_cn e h cn t init pos neg. Proof. apply loop_cn_k. Qed.
Lemma grow_k e h k cols poss t init pos neg : ripper_grow e (with_k h k) cols poss t init pos neg = ripper_grow e h cols poss t init pos neg. Proof. apply loop_k. Qed.
Lemma optimize_cn_k e h k cn t rs pos neg : optimize_cn e (with_k h k) cn t rs pos neg = optimize_cn e h cn t rs pos neg.
Proof. unfold optimize_cn. apply bind_same. intros [b dl]. rewrite opt_loop_cn_k. reflexivity. Qed.
Lemma optimize_k e h k cols poss t rs pos neg : optimize e (with_k h k) cols poss t rs pos neg = optimize e h cols poss t rs pos neg.
Proof. unfold optimize. apply bind_same. intros [b dl]. rewrite opt_loop_k. reflexivity. Qed.
Lemma cover_cn_k e h k cn t rs pos neg : cover_remaining_cn e (with_k h k) cn t rs pos neg = cover_remaining_cn e h cn t rs pos neg.
Proof. unfold cover_remaining_cn. rewrite grow_cn_k. reflexivity. Qed.
Lemma cover_k e h k cols poss t rs pos neg : cover_remaining e (with_k h k) cols poss t rs pos neg = cover_remaining e h cols poss t rs pos neg.
Proof. unfold cover_remaining. cbv zeta. rewrite grow_k. reflexivity. Qed.
Lemma trace_ext p q : (forall t rs, p t rs = q t rs) -> forall k t rs, optimize_trace p k t rs = optimize_trace q k t rs.
Proof. intros H. induction k as [|k IH]; intros t rs; cbn [optimize_trace]; auto. rewrite H. destruct (q t rs) as [[n t']|]; auto. rewrite IH. reflexivity. Qed.
Lemma halts_ext p q : (forall t rs, p t rs = q t rs) -> forall k i t rs, halts_at p k i t rs = halts_at q k i t rs.
Proof. intros H. induction k as [|k IH]; intros i t rs; cbn [halts_at]; auto. rewrite H. destruct (q t rs) as [[n t']|]; auto. rewrite IH. reflexivity. Qed.
Lemma stages_same uncov poss p q k K regrow cover cover' sub rs t : optimize_trace p k t rs = optimize_trace q K t rs -> (forall t rs, cover t rs = cover' t rs) ->
  ripper_stages uncov poss p k regrow cover sub rs t = ripper_stages uncov poss q K regrow cover' sub rs t.
Proof. intros H C. unfold ripper_stages. rewrite H. destruct (optimize_trace q K t rs) as [rs2 [t2|]]; auto. rewrite C. reflexivity. Qed.

Lemma ripper_halted e h K cnopt df cf pc init j k : ripper_halts e (with_k h K) cnopt df cf pc init = Some j -> j <= k ->
  ripper_trace e (with_k h k) cnopt df cf pc init = ripper_trace e (with_k h K) cnopt df cf pc init.
Proof.
  unfold ripper_halts, ripper_trace. intros H L. destruct cnopt.
  - destruct (cn_make df cf) as [cn|]; [|reflexivity]. cbn [bind] in *. destruct (pos_neg_split df cf pc) as [[p n]|]; [|reflexivity]. cbn [bind] in *. rewrite !grow_cn_k in *.
    destruct (ripper_grow_cn _ _ _ _ _ _ _) as [[rs1 t1]|]; [|reflexivity]. cbn [bind] in *. change (h_k (with_k h K)) with K in *. change (h_k (with_k h k)) with k.
    apply stages_same; [|intros; rewrite !cover_cn_k; reflexivity].
    rewrite (trace_ext _ (fun t rs => optimize_cn e h cn t rs (labels (frows p)) (labels (frows n)))) by (intros; apply optimize_cn_k).
    rewrite (trace_ext _ (fun t rs => optimize_cn e h cn t rs (labels (frows p)) (labels (frows n)))  (fun t rs => optimize_cn_k e h K cn t rs _ _) K).
    rewrite (halts_ext _ (fun t rs => optimize_cn e h cn t rs (labels (frows p)) (labels (frows n)))) in H by (intros; apply optimize_cn_k).
    eapply halts_final; eauto; [apply optimize_cn_fixed|lia].
  - destruct (pos_neg_split df cf pc) as [[p n]|]; [|reflexivity]. cbn [bind] in *. destruct (drop_col p cf) as [p'|]; [|reflexivity]. cbn [bind] in *. destruct (drop_col n cf) as [n'|]; [|reflexivity]. cbn [bind] in *. cbv zeta in *. rewrite !grow_k in *.
    destruct (ripper_grow _ _ _ _ _ _ _ _) as [[rs1 t1]|]; [|reflexivity]. cbn [bind] in *. change (h_k (with_k h K)) with K in *. change (h_k (with_k h k)) with k.
    set (poss := update_possible_conds _ _ _ _) in *.
    apply stages_same; [|intros; rewrite !cover_k; reflexivity].
    rewrite (trace_ext _ (fun t rs => optimize e h (fcols p') poss t rs (frows p') (frows n'))) by (intros; apply optimize_k).
    rewrite (trace_ext _ (fun t rs => optimize e h (fcols p') poss t rs (frows p') (frows n')) (fun t rs => optimize_k e h K _ _ t rs _ _) K).
    rewrite (halts_ext _ (fun t rs => optimize e h (fcols p') poss t rs (frows p') (frows n'))) in H by (intros; apply optimize_k).
    eapply halts_final; eauto; [apply optimize_fixed|lia].
Qed.
Lemma ripper_halts_k e h K cnopt df cf pc init j : ripper_halts e (with_k h K) cnopt df cf pc init = Some j -> 1 <= j /\ j < K /\
  forall k, ripper_halts e (with_k h k) cnopt df cf pc init = if j <? k then Some j else None.
Proof.
  unfold ripper_halts. intros H. destruct cnopt.
  - destruct (cn_make df cf) as [cn|]; [|discriminate]. cbn [bind] in *. destruct (pos_neg_split df cf pc) as [[p n]|]; [|discriminate]. cbn [bind] in *. rewrite grow_cn_k in *.
    destruct (ripper_grow_cn _ _ _ _ _ _ _) as [[rs1 t1]|] eqn:G; [|discriminate]. cbn [bind] in *. change (h_k (with_k h K)) with K in *.
    assert (RG := halts_range _ _ _ _ _ _ H). split; [lia|]. split; [lia|]. intros k. rewrite grow_cn_k, G. cbn [bind]. change (h_k (with_k h k)) with k.
    rewrite (halts_ext _ (fun t rs => optimize_cn e h cn t rs (labels (frows p)) (labels (frows n)))) by (intros; apply optimize_cn_k).
    rewrite (halts_ext _ (fun t rs => optimize_cn e h cn t rs (labels (frows p)) (labels (frows n)))) in H by (intros; apply optimize_cn_k).
    rewrite (halts_other _ _ _ _ _ _ H k). destruct (Nat.ltb_spec (j + 1) (1 + k)), (Nat.ltb_spec j k); auto; lia.
  - destruct (pos_neg_split df cf pc) as [[p n]|]; [|discriminate]. cbn [bind] in *. destruct (drop_col p cf) as [p'|]; [|discriminate]. cbn [bind] in *. destruct (drop_col n cf) as [n'|]; [|discriminate]. cbn [bind] in *. cbv zeta in *. rewrite grow_k in *.
    destruct (ripper_grow _ _ _ _ _ _ _ _) as [[rs1 t1]|] eqn:G; [|discriminate]. cbn [bind] in *. change (h_k (with_k h K)) with K in *.
    assert (RG := halts_range _ _ _ _ _ _ H). split; [lia|]. split; [lia|]. intros k. rewrite grow_k, G. cbn [bind]. change (h_k (with_k h k)) with k.
    set (poss := update_possible_conds _ _ _ _) in *.
    rewrite (halts_ext _ (fun t rs => optimize e h (fcols p') poss t rs (frows p') (frows n'))) by (intros; apply optimize_k).
    rewrite (halts_ext _ (fun t rs => optimize e h (fcols p') poss t rs (frows p') (frows n'))) in H by (intros; apply optimize_k).
    rewrite (halts_other _ _ _ _ _ _ H k). destruct (Nat.ltb_spec (j + 1) (1 + k)), (Nat.ltb_spec j k); auto; lia.
Qed.
