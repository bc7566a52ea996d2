(** * ReproFacts.v : what of the outside world a fit can depend on (C64), and what of the classifier's past (C66) *)
From Verif Require Import ClassFacts FitRun.
Open Scope nat_scope.

(** two processes in which shuffling with the given random_state does the same *)
Record same_draws (a b : env) : Prop := mksame_draws {
  sd_shuf : forall t l, shuf a t l = shuf b t l;
  sd_split : forall s n, e_split a s n = e_split b s n }.

Section Two.
Variables a b : env.
Hypothesis S : same_draws a b.

Lemma random_split_same t s l : random_split a t s l = random_split b t s l.
Proof. unfold random_split. now rewrite (sd_shuf _ _ S), (sd_split _ _ S). Qed.
Lemma df_split_same t s l : df_shuffled_split a t s l = df_shuffled_split b t s l.
Proof. unfold df_shuffled_split. now rewrite random_split_same. Qed.
Lemma bind_same {A B} (x : res A) (f g : A -> res B) : (forall v, f v = g v) -> bind x f = bind x g.
Proof. intros H. destruct x; cbn [bind]; auto. Qed.

Ltac same IH := rewrite ?random_split_same, ?df_split_same;
  repeat first [ reflexivity | apply IH | apply bind_same; intros | progress rewrite ?random_split_same, ?df_split_same
               | match goal with |- context [match ?x with _ => _ end] => destruct x end ].

Lemma irep_loop_cn_same k : forall h cn t rs p n, irep_loop_cn k a h cn t rs p n = irep_loop_cn k b h cn t rs p n.
Proof. induction k as [|k IH]; intros; cbn [irep_loop_cn]; same IH. Qed.
Lemma irep_loop_same k : forall h cols ps t rs p n, irep_loop k a h cols ps t rs p n = irep_loop k b h cols ps t rs p n.
Proof. induction k as [|k IH]; intros; cbn [irep_loop]; same IH. Qed.
Lemma ripper_loop_cn_same k : forall h cn p0 n0 t rs st d p n,
  ripper_loop_cn k a h cn p0 n0 t rs st d p n = ripper_loop_cn k b h cn p0 n0 t rs st d p n.
Proof. induction k as [|k IH]; intros; cbn [ripper_loop_cn]; same IH. Qed.
Lemma ripper_loop_same k : forall h cols ps p0 n0 t rs st d p n,
  ripper_loop k a h cols ps p0 n0 t rs st d p n = ripper_loop k b h cols ps p0 n0 t rs st d p n.
Proof. induction k as [|k IH]; intros; cbn [ripper_loop]; same IH. Qed.
Lemma optimize_loop_cn_same h cn orig dl p0 n0 todo : forall t i new p n,
  optimize_loop_cn a h cn orig dl p0 n0 t i todo new p n = optimize_loop_cn b h cn orig dl p0 n0 t i todo new p n.
Proof. induction todo as [|r todo IH]; intros; cbn [optimize_loop_cn]; same IH. Qed.
Lemma optimize_loop_same h cols ps orig dl p0 n0 todo : forall t i new p n,
  optimize_loop a h cols ps orig dl p0 n0 t i todo new p n = optimize_loop b h cols ps orig dl p0 n0 t i todo new p n.
Proof. induction todo as [|r todo IH]; intros; cbn [optimize_loop]; same IH. Qed.
Lemma optimize_iter_same f g k : (forall t rs, f t rs = g t rs) -> forall t rs, optimize_iter f k t rs = optimize_iter g k t rs.
Proof.
  intros E. induction k as [|k IH]; intros; cbn [optimize_iter]; auto. rewrite E. apply bind_same. intros [new t']. rewrite IH. reflexivity.
Qed.
Lemma optimize_cn_same h cn t rs p n : optimize_cn a h cn t rs p n = optimize_cn b h cn t rs p n.
Proof. unfold optimize_cn. apply bind_same. intros [? dl]. rewrite optimize_loop_cn_same. reflexivity. Qed.
Lemma optimize_same h cols ps t rs p n : optimize a h cols ps t rs p n = optimize b h cols ps t rs p n.
Proof. unfold optimize. apply bind_same. intros [? dl]. rewrite optimize_loop_same. reflexivity. Qed.

Lemma irep_train_same h cnopt df cf pc init : cnopt = true \/ (forall l, set_order a l = set_order b l) ->
  irep_train a h cnopt df cf pc init = irep_train b h cnopt df cf pc init.
Proof.
  intros C. unfold irep_train, irep_grow_cn, irep_grow. destruct cnopt.
  - apply bind_same; intros cn. apply bind_same; intros [p n]. rewrite irep_loop_cn_same. reflexivity.
  - destruct C as [C|C]; [discriminate|]. apply bind_same; intros [p n]. apply bind_same; intros p'. apply bind_same; intros n'. cbv zeta.
    replace (update_possible_conds (set_order a) match rs_possible init with Some l => l | None => [] end p' n')
      with (update_possible_conds (set_order b) match rs_possible init with Some l => l | None => [] end p' n')
      by (unfold update_possible_conds; f_equal; apply flat_map_ext; intros; now rewrite C).
    rewrite irep_loop_same. reflexivity.
Qed.
Lemma optimize_trace_same pass pass' k : (forall t rs, pass t rs = pass' t rs) -> forall t rs, optimize_trace pass k t rs = optimize_trace pass' k t rs.
Proof.
  intros H. induction k as [|k IH]; intros t rs; cbn [optimize_trace]; auto. rewrite H. destruct (pass' t rs) as [[new t']|]; auto. destruct (_ && _); auto.
Qed.
Lemma ripper_stages_same uncov possible pass pass' k regrow cover cover' subset rs1 t1 :
  (forall t rs, pass t rs = pass' t rs) -> (forall t rs, cover t rs = cover' t rs) ->
  ripper_stages uncov possible pass k regrow cover subset rs1 t1 = ripper_stages uncov possible pass' k regrow cover' subset rs1 t1.
Proof.
  intros H C. unfold ripper_stages. rewrite (optimize_trace_same pass pass' k H). destruct (optimize_trace pass' k t1 rs1) as [rs2 [t2|]]; auto. rewrite C. reflexivity.
Qed.
Lemma ripper_trace_same h cnopt df cf pc init : cnopt = true \/ (forall l, set_order a l = set_order b l) ->
  ripper_trace a h cnopt df cf pc init = ripper_trace b h cnopt df cf pc init.
Proof.
  intros C. unfold ripper_trace, ripper_grow_cn, ripper_grow. destruct cnopt.
  - destruct (cn_make df cf) as [cn|]; auto. cbn [bind]. destruct (pos_neg_split df cf pc) as [[p n]|]; auto. cbn [bind]. rewrite ripper_loop_cn_same.
    destruct (ripper_loop_cn _ _ _ _ _ _ _ _ _ _) as [[rs1 t1]|]; auto. cbn [bind]. apply ripper_stages_same.
    + intros t rs. apply optimize_cn_same.
    + intros t rs. unfold cover_remaining_cn, ripper_grow_cn. rewrite ripper_loop_cn_same. reflexivity.
  - destruct C as [C|C]; [discriminate|]. destruct (pos_neg_split df cf pc) as [[p n]|]; auto. cbn [bind]. destruct (drop_col p cf) as [p'|]; auto. cbn [bind].
    destruct (drop_col n cf) as [n'|]; auto. cbn [bind]. cbv zeta.
    assert (U : forall old x y, update_possible_conds (set_order a) old x y = update_possible_conds (set_order b) old x y)
      by (intros; unfold update_possible_conds; f_equal; apply flat_map_ext; intros; now rewrite C).
    rewrite U. set (ps := update_possible_conds (set_order b) _ _ _). rewrite ripper_loop_same. destruct (ripper_loop _ _ _ _ _ _ _ _ _ _ _) as [[rs1 t1]|]; auto. cbn [bind].
    apply ripper_stages_same.
    + intros t rs. apply optimize_same.
    + intros t rs. unfold cover_remaining, ripper_grow. cbv zeta. rewrite U, ripper_loop_same. reflexivity.
Qed.
Lemma ripper_train_same h cnopt df cf pc init : cnopt = true \/ (forall l, set_order a l = set_order b l) ->
  ripper_train a h cnopt df cf pc init = ripper_train b h cnopt df cf pc init.
Proof.
  intros C. unfold ripper_train, ripper_grow_cn, ripper_grow. destruct cnopt.
  - apply bind_same; intros cn. apply bind_same; intros [p n]. cbv zeta. rewrite ripper_loop_cn_same. apply bind_same; intros [rs1 t1].
    rewrite (optimize_iter_same (fun t rs => optimize_cn a h cn t rs (labels (frows p)) (labels (frows n)))
               (fun t rs => optimize_cn b h cn t rs (labels (frows p)) (labels (frows n))) (h_k h) (fun t rs => optimize_cn_same h cn t rs _ _)).
    apply bind_same; intros [rs2 t2].
    replace (cover_remaining_cn a h cn t2 rs2 (labels (frows p)) (labels (frows n)))
      with (cover_remaining_cn b h cn t2 rs2 (labels (frows p)) (labels (frows n))); [reflexivity|].
    unfold cover_remaining_cn, ripper_grow_cn. rewrite ripper_loop_cn_same. reflexivity.
  - destruct C as [C|C]; [discriminate|]. apply bind_same; intros [p n]. apply bind_same; intros p'. apply bind_same; intros n'. cbv zeta.
    assert (U : forall old x y, update_possible_conds (set_order a) old x y = update_possible_conds (set_order b) old x y)
      by (intros; unfold update_possible_conds; f_equal; apply flat_map_ext; intros; now rewrite C).
    rewrite U. set (ps := update_possible_conds (set_order b) _ _ _). rewrite ripper_loop_same. apply bind_same; intros [rs1 t1].
    rewrite (optimize_iter_same (fun t rs => optimize a h (fcols p') ps t rs (frows p') (frows n'))
               (fun t rs => optimize b h (fcols p') ps t rs (frows p') (frows n')) (h_k h) (fun t rs => optimize_same h _ _ t rs _ _)).
    apply bind_same; intros [rs2 t2].
    replace (cover_remaining a h (fcols p') ps t2 rs2 (frows p') (frows n'))
      with (cover_remaining b h (fcols p') ps t2 rs2 (frows p') (frows n')); [reflexivity|].
    unfold cover_remaining, ripper_grow. rewrite U, ripper_loop_same. reflexivity.
Qed.
End Two.

(** two hash functions with the same collisions (in particular: without any) *)
Definition same_collisions (H K : list str -> Z) : Prop := forall x y, H x = H y <-> K x = K y.
Lemma remove_dups_hash H K l : same_collisions H K -> forall seen, remove_dups_from H seen l = remove_dups_from K seen l.
Proof.
  intros N. induction l as [|r l IH]; intros seen; cbn [remove_dups_from]; auto.
  replace (in_set H seen r) with (in_set K seen r); [rewrite !IH; reflexivity|].
  unfold in_set. induction seen as [|x seen IHs]; cbn [existsb]; auto. rewrite IHs. f_equal. f_equal. unfold rule_hash.
  destruct (Z.eqb_spec (H (sort_strs (cond_strs x))) (H (sort_strs (cond_strs r)))) as [E|E].
  - apply N in E. rewrite E. apply Z.eqb_refl.
  - apply Z.eqb_neq. intros E'. apply E. apply N. exact E'.
Qed.

(** ** fit *)
Lemma dedupe_trim_same u v h x : same_collisions (e_hash u) (e_hash v) -> dedupe_trim u h x = dedupe_trim v h x.
Proof. intros N. unfold dedupe_trim, remove_duplicates. now rewrite (remove_dups_hash _ _ _ N). Qed.
Lemma fit_same u v cl X y cf pc names init cnopt kwargs :
  same_draws (w_env u) (w_env v) -> w_cut u = w_cut v -> same_collisions (e_hash (w_env u)) (e_hash (w_env v)) ->
  cnopt = true \/ (forall l, set_order (w_env u) l = set_order (w_env v) l) ->
  fit u cl X y cf pc names init cnopt kwargs = fit v cl X y cf pc names init cnopt kwargs.
Proof.
  intros D C N O. unfold fit. destruct (c_alg cl).
  - destruct (irep_start init); auto. unfold irep_fit. rewrite C. destruct (irep_start init); auto.
    destruct (preprocess_training _ _ _ _ _ _ _) as [[[[df f] p] bt]|]; auto.
    rewrite (bind_same _ _ (fun x => irep_train (w_env v) (c_hyper (set_fit_params cl kwargs)) cnopt df f p x)
               (fun x => irep_train_same _ _ D _ _ _ _ _ x O)).
    destruct (bind _ _); auto. destruct (cols_without df f); auto. destruct (clf_recalibrate _ _ _ _ _ _ _) as [cl5 [?|?]]; auto.
    destruct (c_rs _); auto. now rewrite (dedupe_trim_same _ _ _ _ N).
  - unfold ripper_fit. rewrite C.
    destruct (preprocess_training _ _ _ _ _ _ _) as [[[[df f] p] bt]|]; auto.
    destruct (frommodel init) as [xi|]; auto. rewrite (ripper_trace_same _ _ D _ _ _ _ _ xi O).
    destruct (ripper_trace _ _ _ _ _ _ _) as [lf [x1|]]; auto. destruct (cols_without df f); auto. now rewrite (dedupe_trim_same _ _ _ _ N).
Qed.

(** ** The past of a classifier *)
Definition fresh (cl : clf) : clf := new_clf (c_alg cl) (c_hyper cl).
Lemma fit_forgets w cl1 cl2 X y cf pc names init cnopt kwargs : c_alg cl1 = c_alg cl2 -> c_hyper cl1 = c_hyper cl2 ->
  forall a1 o1 a2 o2, fit w cl1 X y cf pc names init cnopt kwargs = (a1, o1) -> fit w cl2 X y cf pc names init cnopt kwargs = (a2, o2) ->
  o1 = o2 /\ (o1 = Ok tt -> a1 = a2).
Proof.
  destruct cl1 as [al h r1 f1 p1 b1 s1 t1 k1], cl2 as [al2 h2 r2 f2 p2 b2 s2 t2 k2]. cbn [c_alg c_hyper]. intros <- <- a1 o1 a2 o2.
  unfold fit. cbn [c_alg]. destruct al.
  - destruct (irep_start init) eqn:ES; [|intros [= <- <-] [= <- <-]; split; auto; discriminate].
    unfold irep_fit, set_fit_params, set_params, set_hyper. rewrite ES. cbn [c_alg c_hyper set_rs c_rs].
    destruct (preprocess_training _ _ _ _ _ _ _) as [[[[df f] p] bt]|]; [|intros [= <- <-] [= <- <-]; split; auto; discriminate].
    cbn [set_data set_rs c_alg c_hyper c_rs c_cf c_pc c_bt c_sel c_feats c_classes].
    destruct (bind _ _); [|intros [= <- <-] [= <- <-]; split; auto; discriminate].
    destruct (cols_without df f); [|intros [= <- <-] [= <- <-]; split; auto; discriminate].
    unfold clf_recalibrate, set_feats, set_data, set_rs, set_classes. cbn [c_alg c_hyper c_rs c_cf c_pc c_bt c_sel c_feats c_classes].
    cbv beta iota zeta. destruct (preprocess_recalibrate (DFrame df) None f None None); cbv beta iota zeta; [|intros [= <- <-] [= <- <-]; split; auto; discriminate].
    destruct (recalibrate_run _ _ _ _ _ _ _) as [x' [?|?]]; cbv beta iota zeta; cbn [c_alg c_hyper c_rs c_cf c_pc c_bt c_sel c_feats c_classes];
      intros [= <- <-] [= <- <-]; split; auto; discriminate.
  - unfold ripper_fit, set_fit_params, set_params, set_hyper. cbn [c_alg c_hyper].
    destruct (preprocess_training _ _ _ _ _ _ _) as [[[[df f] p] bt]|]; [|intros [= <- <-] [= <- <-]; split; auto; discriminate].
    cbn [set_data set_rs c_alg c_hyper c_rs c_cf c_pc c_bt c_sel c_feats c_classes].
    destruct (match frommodel init with Ok _ => _ | Err _ => _ end) as [lf [x1|]]; [|intros [= <- <-] [= <- <-]; split; auto; discriminate].
    destruct (cols_without df f); [|intros [= <- <-] [= <- <-]; split; auto; discriminate].
    unfold clf_recalibrate, set_feats, set_data, set_rs, set_classes. cbn [c_alg c_hyper c_rs c_cf c_pc c_bt c_sel c_feats c_classes].
    cbv beta iota zeta. destruct (preprocess_recalibrate (DFrame df) None f None None); cbv beta iota zeta; [|intros [= <- <-] [= <- <-]; split; auto; discriminate].
    destruct (recalibrate_run _ _ _ _ _ _ _) as [x' [?|?]]; cbv beta iota zeta; cbn [c_alg c_hyper c_rs c_cf c_pc c_bt c_sel c_feats c_classes];
      intros [= <- <-] [= <- <-]; split; auto; discriminate.
Qed.
