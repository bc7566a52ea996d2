(** * IrepTrain.v : IREP training from the frame; exact fit without pruning *)
From Verif Require Export Hom.
From Coq Require Import Lqa.
Open Scope nat_scope.

(** ** Double counting *)
Lemma list_sum_cons a l : list_sum (a :: l) = a + list_sum l. Proof. reflexivity. Qed.
Lemma double_count {A B} (p : A -> B -> bool) l V :
  list_sum (map (fun v => length (filter (fun a => p a v) l)) V) = list_sum (map (fun a => length (filter (p a) V)) l).
Proof.
  induction l as [|a l IH].
  - cbn [map]. induction V as [|v V IH]; [reflexivity|]. cbn [map]. rewrite list_sum_cons, IH. reflexivity.
  - cbn [map]. rewrite list_sum_cons, <- IH. clear IH.
    induction V as [|v V IH]; [reflexivity|]. cbn [filter map] in IH |- *. rewrite !list_sum_cons, IH.
    destruct (p a v); cbn [length]; lia.
Qed.
Lemma list_sum_le {A} (f : A -> nat) l k : (forall a, In a l -> f a <= k) -> list_sum (map f l) <= k * length l.
Proof.
  induction l as [|a l IH]; intros H; [cbn; lia|]. cbn. pose proof (H a (or_introl eq_refl)).
  specialize (IH ltac:(intros; apply H; right; auto)). unfold list_sum in *. lia.
Qed.
Lemma list_sum_eq {A} (f : A -> nat) l k : (forall a, In a l -> f a = k) -> list_sum (map f l) = k * length l.
Proof.
  induction l as [|a l IH]; intros H; [cbn; lia|]. cbn. rewrite (H a (or_introl eq_refl)).
  specialize (IH ltac:(intros; apply H; right; auto)). unfold list_sum in *. lia.
Qed.
Lemma list_sum_filter {A} (f : A -> nat) q l : (forall a, In a l -> q a = false -> f a = 0) -> list_sum (map f l) = list_sum (map f (filter q l)).
Proof.
  induction l as [|a l IH]; intros H; [reflexivity|]. cbn [map filter]. specialize (IH ltac:(intros; apply H; auto; right; auto)).
  destruct (q a) eqn:Q; cbn [map]; unfold list_sum in *; cbn [fold_right]; [lia|]. rewrite (H a (or_introl eq_refl) Q). lia.
Qed.
Lemma list_sum_filter_le {A} (f : A -> nat) q l : list_sum (map f (filter q l)) <= list_sum (map f l).
Proof.
  induction l as [|a l IH]; [cbn; lia|]. cbn [map filter]. destruct (q a); cbn [map]; unfold list_sum in *; cbn [fold_right]; lia.
Qed.
Lemma list_sum_comb {A} (f g : A -> nat) a b l : (forall v, In v l -> (f v + 1) * a <= b * g v) ->
  (list_sum (map f l) + length l) * a <= b * list_sum (map g l).
Proof.
  induction l as [|v l IH]; intros H; [cbn; lia|]. cbn [map length]. pose proof (H v (or_introl eq_refl)).
  specialize (IH ltac:(intros; apply H; right; auto)). unfold list_sum in *. cbn [fold_right]. nia.
Qed.

(** if no value of V gains, all examples share one value. [p a v]: example a has value v; each has exactly one in V. *)
Lemma no_gain_one_value {A B} (p : A -> B -> bool) (V : list B) (pos neg : list A) :
  (forall a, In a pos -> length (filter (p a) V) = 1) -> (forall a, In a neg -> length (filter (p a) V) <= 1) ->
  pos <> [] -> neg <> [] ->
  (forall v, In v V -> ~ (0 < length (filter (fun a => p a v) pos) /\
     (length pos + 1) * length (filter (fun a => p a v) neg) < (length (filter (fun a => p a v) pos) + 1) * length neg)) ->
  exists v, In v V /\ (forall a, In a pos -> p a v = true) /\ (forall a, In a neg -> p a v = true).
Proof.
  intros H1 H2 NP NN NG.
  set (pc := fun v => length (filter (fun a => p a v) pos)). set (nc := fun v => length (filter (fun a => p a v) neg)).
  set (q := fun v => 0 <? pc v).
  assert (LP : 0 < length pos) by (destruct pos; [congruence|cbn; lia]). assert (LN : 0 < length neg) by (destruct neg; [congruence|cbn; lia]).
  assert (S1 : list_sum (map pc (filter q V)) = length pos).
  { rewrite <- list_sum_filter. 2:{ intros v _ Q. apply Nat.ltb_ge in Q. lia. }
    unfold pc. rewrite double_count, (list_sum_eq _ _ 1) by auto. lia. }
  assert (S2 : list_sum (map nc (filter q V)) <= length neg).
  { eapply Nat.le_trans; [apply list_sum_filter_le|]. unfold nc. rewrite double_count.
    eapply Nat.le_trans; [apply (list_sum_le _ _ 1); auto|]. lia. }
  assert (S3 : (list_sum (map pc (filter q V)) + length (filter q V)) * length neg <= (length pos + 1) * list_sum (map nc (filter q V))).
  { apply list_sum_comb. intros v I. apply filter_In in I. destruct I as [I Q]. apply Nat.ltb_lt in Q.
    specialize (NG v I). fold (pc v) in NG. fold (nc v) in NG. lia. }
  rewrite S1 in S3. remember (filter q V) as W eqn:EW.
  destruct W as [|v [|v' W]].
  - cbn in S1. lia.
  - exists v. assert (IV : In v V). { assert (I : In v (filter q V)) by (rewrite <- EW; left; auto). apply filter_In in I; tauto. }
    cbn in S1, S2, S3. split; auto.
    assert (A1 : pc v = length pos) by lia. assert (A2 : nc v = length neg) by nia.
    assert (K : forall l, length (filter (fun a => p a v) l) = length l -> forall a, In a l -> p a v = true).
    { clear. induction l as [|b l IH]; intros H a I; [destruct I|]. cbn [filter length] in H.
      pose proof (filter_length_le (fun a => p a v) l). destruct (p b v) eqn:Q; cbn [length] in H; [|lia].
      destruct I as [<-|I]; auto. }
    split; apply K; auto.
  - cbn [length] in S3. exfalso. nia.
Qed.

Lemma unique_count w vs : length (filter (fun v => py_eq w v) (unique vs)) <= 1.
Proof.
  unfold unique. generalize (@nil pyval). induction vs as [|a vs IH]; intros seen; cbn [dedup_by]; [cbn; lia|].
  destruct (existsb _ seen); auto. cbn [filter]. destruct (py_eq w a) eqn:Q; auto. cbn [length].
  assert (filter (fun v => py_eq w v) (dedup_by uniq_eq (seen ++ [a]) vs) = []) as ->; [|cbn; lia].
  apply filter_none. intros b I. destruct (py_eq w b) eqn:B; auto. exfalso.
  destruct (dedup_by_NoDup uniq_eq uniq_eq_refl (seen ++ [a]) vs) as [_ N]. specialize (N b I).
  rewrite existsb_app in N. apply Bool.orb_false_elim in N. destruct N as [_ N]. cbn in N. rewrite Bool.orb_false_r in N.
  unfold uniq_eq in N. apply Bool.orb_false_elim in N. destruct N as [N _].
  rewrite py_eq_sym in Q. rewrite (py_eq_trans _ _ _ Q B) in N. discriminate.
Qed.
Lemma unique_count1 w vs : In w vs -> w <> PNaN -> length (filter (fun v => py_eq w v) (unique vs)) = 1.
Proof.
  intros I NN. pose proof (unique_count w vs). destruct (unique_complete w vs I) as (u & U & Q).
  assert (Q' : py_eq w u = true).
  { unfold uniq_eq in Q. apply Bool.orb_true_iff in Q. destruct Q as [Q|Q]; [rewrite py_eq_sym; auto|].
    apply andb_prop in Q. destruct Q as [_ Q]. destruct w; try discriminate. congruence. }
  assert (In u (filter (fun v => py_eq w v) (unique vs))) by (apply filter_In; auto).
  destruct (filter _ _) as [|? l]; [contradiction|]. cbn in *. lia.
Qed.

(** ** Pure rules *)
Lemma stuck_same x r (pos neg : list nat) : good_frame x -> NoDup (labels (frows x)) -> no_missing x ->
  in_frame x pos -> in_frame x neg ->
  (forall c, In c (cn_possible_conds x) -> (ggain (xsat x) r (Rule_ (conds r ++ [c])) pos neg <= 1)%Q) ->
  forall a b, In a (frows x) -> In b (frows x) -> In (rlab a) (gcov (xsat x) r pos) -> In (rlab b) (gcov (xsat x) r neg) -> same_features x a b.
Proof.
  intros [W Dc] N NM Ip In_ G a b Ia Ib Ca Cb f v Hv.
  destruct Hv as (j & col & J1 & J2 & J3).
  assert (JC : forall rw, In rw (frows x) -> exists w, cell (fcols x) col rw = Some w /\ In w (rcells rw) /\ nth_error (rcells rw) j = Some w).
  { intros rw I. specialize (W rw I). destruct (nth_error (rcells rw) j) as [w|] eqn:Z.
    - exists w. split; [|split; auto; eapply nth_error_In; eauto]. apply cell_value_at; auto. exists j, col. repeat split; auto.
      rewrite py_eq_refl; auto. intros C. subst col. rewrite py_eq_nan_l in J2. discriminate.
    - apply nth_error_None in Z. assert (j < length (fcols x)) by (apply nth_error_Some; congruence). lia. }
  set (P := gcov (xsat x) r pos) in *. set (Ng := gcov (xsat x) r neg) in *.
  assert (IP : in_frame x P) by (intros i I; apply Ip; eapply gcov_incl; eauto).
  assert (IN : in_frame x Ng) by (intros i I; apply In_; eapply gcov_incl; eauto).
  assert (XS : forall i, In i (labels (frows x)) -> exists w, In w (column x col) /\ w <> PNaN /\ forall v, xsat x (mkcond col v) i = py_eq w v).
  { intros i I. apply in_map_iff in I. destruct I as (rw & <- & I). destruct (JC rw I) as (w & Cw & Iw & _). exists w.
    split; [apply column_In; eauto|]. split; [eapply NM; eauto|]. intros u. rewrite xsat_row by auto. unfold rsat, cell_eq. cbn. rewrite Cw. reflexivity. }
  destruct (no_gain_one_value (fun i u => xsat x (mkcond col u) i) (unique (column x col)) P Ng) as (u & U1 & U2 & U3).
  - intros i I. destruct (XS i (IP i I)) as (w & Iw & NN & Q). rewrite <- (unique_count1 w (column x col)) by auto. f_equal. apply filter_ext. auto.
  - intros i I. destruct (XS i (IN i I)) as (w & Iw & NN & Q). rewrite <- (unique_count1 w (column x col)) by auto.
    apply Nat.eq_le_incl. f_equal. apply filter_ext. auto.
  - intros C. unfold P in *. rewrite C in Ca. destruct Ca.
  - intros C. unfold Ng in *. rewrite C in Cb. destruct Cb.
  - intros u U [L1 L2].
    assert (Ic : In (mkcond col u) (cn_possible_conds x)).
    { apply possible_In. exists col, u. split; [eapply nth_error_In; eauto|]. auto. }
    specialize (G _ Ic). apply (Qle_not_lt _ _ G). unfold ggain. rewrite !(gcov_conds (xsat x) r (Rule_ (conds r))) by auto.
    rewrite !gcov_step. apply gain2_gt1. rewrite !(gcov_conds (xsat x) (Rule_ (conds r)) r) by auto. fold P. fold Ng. split; auto.
  - specialize (U2 _ Ca). specialize (U3 _ Cb).
    destruct (JC a Ia) as (wa & Wa & _ & Na). destruct (JC b Ib) as (wb & Wb & _ & Nb).
    rewrite xsat_row in U2, U3 by auto. unfold rsat, cell_eq in U2, U3. cbn in U2, U3. rewrite Wa in U2. rewrite Wb in U3.
    assert (v = wa) by congruence. subst v. exists wb. split; [exists j, col; auto|].
    eapply py_eq_trans; [exact U2|]. rewrite py_eq_sym. exact U3.
Qed.

(** ** From the frame to the labels *)
Definition cand_conds (e : env) (cnopt : bool) (x : frame) (old : list cond) (pos neg : frame) : list cond :=
  if cnopt then cn_possible_conds x else update_possible_conds (set_order e) old pos neg.
Lemma drop_col_rows fr cf x (g : row -> bool) : drop_col fr cf = Ok x ->
  exists y, drop_col (with_rows fr (filter g (frows fr))) cf = Ok y /\ fcols y = fcols x /\ incl (frows y) (frows x) /\
    labels (frows y) = labels (filter g (frows fr)).
Proof.
  unfold drop_col. cbn [fcols with_rows frows]. destruct (col_pos (fcols fr) cf) as [j|]; [|discriminate]. intros H. injection H as <-.
  eexists. split; [reflexivity|]. cbn [fcols frows]. split; auto. split.
  - intros rw I. apply in_map_iff in I. destruct I as (r0 & <- & I). apply filter_In in I. apply in_map_iff. exists r0. tauto.
  - unfold labels. rewrite map_map. reflexivity.
Qed.

Definition old_possible (init : ruleset) : list cond := match rs_possible init with Some l => l | None => [] end.
Record setting (e : env) (h : hyper) (df : frame) (cf pc : pyval) (x p n p' n' : frame) : Prop := mkset {
  s_env : env_ok e; s_prune0 : (0 <= h_prune h)%Q; s_prune1 : (h_prune h <= 1)%Q;
  s_good : good_frame df; s_labels : distinct_labels df;
  s_x : drop_col df cf = Ok x; s_split : pos_neg_split df cf pc = Ok (p, n);
  s_p' : drop_col p cf = Ok p'; s_n' : drop_col n cf = Ok n' }.
Lemma drop_col_present fr cf x : drop_col fr cf = Ok x -> has_col fr cf = true.
Proof.
  unfold drop_col, has_col. destruct (col_pos (fcols fr) cf) as [j|] eqn:J; [|discriminate]. intros _.
  apply col_pos_spec in J. destruct J as (c & C1 & C2). apply existsb_exists. exists c. split; auto. eapply nth_error_In; eauto.
Qed.
Lemma setting_exists e h df cf pc : env_ok e -> (0 <= h_prune h)%Q -> (h_prune h <= 1)%Q -> good_frame df -> distinct_labels df ->
  column_present df cf -> exists x p n p' n', setting e h df cf pc x p n p' n'.
Proof.
  intros Eo P0 P1 G L C. apply has_col_iff in C.
  assert (X : exists x, drop_col df cf = Ok x).
  { unfold drop_col. destruct (col_pos (fcols df) cf) eqn:J; eauto. exfalso. apply col_pos_none in J.
    unfold has_col in C. congruence. }
  destruct X as [x X]. unfold pos_neg_split.
  destruct (drop_col_rows df cf x (cell_eq (fcols df) cf pc) X) as (p' & P' & _).
  destruct (drop_col_rows df cf x (fun r => negb (cell_eq (fcols df) cf pc r)) X) as (n' & N' & _).
  exists x, (with_rows df (pos_rows df cf pc)), (with_rows df (neg_rows df cf pc)), p', n'.
  constructor; auto. unfold pos_neg_split. rewrite C. reflexivity.
Qed.
Lemma filter_incl_labels (g : row -> bool) rows : incl (labels (filter g rows)) (labels rows).
Proof. unfold labels. intros i I. apply in_map_iff in I. destruct I as (r & <- & I). apply filter_In in I. apply in_map. tauto. Qed.

Section S.
Context {e h df cf pc x p n p' n'} (ST : setting e h df cf pc x p n p' n').
Lemma Eo : env_ok e. Proof. exact (s_env _ _ _ _ _ _ _ _ _ _ ST). Qed.
Lemma st_xgood : good_frame x /\ labels (frows x) = labels (frows df) /\ NoDup (labels (frows x)) /\ ~ column_present x cf /\
  (forall f, In f (fcols x) -> In f (fcols df)).
Proof.
  destruct ST as [? ? ? G L X ? ? ?]. destruct (drop_col_good _ _ _ G X) as (A & B & C & D). split; auto. split; auto. split; [|auto].
  rewrite B. exact L.
Qed.
Lemma st_pn : frows p = pos_rows df cf pc /\ frows n = neg_rows df cf pc.
Proof.
  destruct ST as [? ? ? G L X S ? ?]. unfold pos_neg_split in S. destruct (has_col df cf); [|discriminate]. injection S as <- <-. auto.
Qed.
Lemma st_in : in_frame x (labels (frows p)) /\ in_frame x (labels (frows n)).
Proof.
  destruct st_xgood as (_ & L & _). destruct st_pn as [-> ->]. unfold in_frame. rewrite L. split; apply filter_incl_labels.
Qed.
Lemma st_rows : (fcols p' = fcols x /\ incl (frows p') (frows x) /\ labels (frows p') = labels (frows p)) /\
  (fcols n' = fcols x /\ incl (frows n') (frows x) /\ labels (frows n') = labels (frows n)).
Proof.
  destruct ST as [? ? ? G L X S P N]. unfold pos_neg_split in S. destruct (has_col df cf); [|discriminate]. injection S as Ep En.
  destruct (drop_col_rows df cf x (cell_eq (fcols df) cf pc) X) as (q' & P' & A1 & A2 & A3).
  destruct (drop_col_rows df cf x (fun r => negb (cell_eq (fcols df) cf pc r)) X) as (m' & N' & B1 & B2 & B3).
  fold (pos_rows df cf pc) in P'. fold (neg_rows df cf pc) in N'. rewrite Ep in P'. rewrite En in N'.
  assert (q' = p') by congruence. assert (m' = n') by congruence. subst. cbn [frows with_rows] in *. auto.
Qed.
Lemma NoDup_labels_filter (g : row -> bool) rows : NoDup (labels rows) -> NoDup (labels (filter g rows)).
Proof. apply NoDup_map_filter. Qed.
Lemma st_nodup : NoDup (labels (frows p)) /\ NoDup (labels (frows n)).
Proof.
  destruct st_pn as [-> ->]. destruct ST as [? ? ? ? L ? ? ? ?]. split; apply NoDup_labels_filter; exact L.
Qed.

Lemma irep_train_lab cnopt init :
  irep_train e h cnopt df cf pc init =
  ('(rs, _) <- lab_girep e h x (cand_conds e cnopt x (old_possible init) p' n') (S (length (labels (frows p)))) 0 (rs_rules init)
                 (labels (frows p)) (labels (frows n)) ;;
   Ok (mkruleset rs (Some (cand_conds e cnopt x (old_possible init) p' n')) (rs_uncov init))).
Proof.
  destruct st_xgood as ([W Dc] & EL & ND & _). destruct st_in as [Ip In_]. destruct st_rows as [(R1 & R2 & R3) (R4 & R5 & R6)].
  destruct st_nodup as [N1 N2].
  pose proof Eo as Eo. pose proof (s_x _ _ _ _ _ _ _ _ _ _ ST) as X. pose proof (s_split _ _ _ _ _ _ _ _ _ _ ST) as S.
  pose proof (s_p' _ _ _ _ _ _ _ _ _ _ ST) as P'. pose proof (s_n' _ _ _ _ _ _ _ _ _ _ ST) as N'.
  pose proof (s_prune0 _ _ _ _ _ _ _ _ _ _ ST) as P0. pose proof (s_prune1 _ _ _ _ _ _ _ _ _ _ ST) as P1.
  unfold irep_train. rewrite S. destruct cnopt.
  - destruct (cn_make df cf) as [cn|er] eqn:C.
    2:{ unfold cn_make in C. rewrite X in C. discriminate. }
    destruct (index_setup df cf x cn (s_good _ _ _ _ _ _ _ _ _ _ ST) (s_labels _ _ _ _ _ _ _ _ _ _ ST) X C) as (I & _).
    assert (CC : cn_conds cn = cn_possible_conds x) by apply I.
    cbn [bind]. unfold irep_grow_cn. rewrite (irep_loop_cn_lab e h cn x) by auto. unfold cand_conds. rewrite CC. reflexivity.
  - cbn [bind]. rewrite P', N'. cbn [bind]. unfold irep_grow. rewrite R1.
    rewrite (irep_loop_lab e h x) by (auto; rewrite ?R3, ?R6; auto). unfold cand_conds, old_possible.
    rewrite R3, R6. rewrite <- R3. unfold labels. rewrite map_length. reflexivity.
Qed.
Lemma lab_girep_total cand rs t pos neg : in_frame x pos -> in_frame x neg -> isOk (lab_girep e h x cand (S (length pos)) t rs pos neg).
Proof.
  intros Ip In_. apply girep_total with (D := in_frame x); auto.
  apply lab_sp_ok; [exact Eo|apply (s_prune0 _ _ _ _ _ _ _ _ _ _ ST)|apply (s_prune1 _ _ _ _ _ _ _ _ _ _ ST)].
Qed.
Lemma irep_train_total cnopt init : exists rs, irep_train e h cnopt df cf pc init = Ok rs.
Proof.
  rewrite irep_train_lab. destruct st_in as [Ip In_]. destruct (lab_girep_total (cand_conds e cnopt x (old_possible init) p' n') (rs_rules init) 0 _ _ Ip In_) as [[rs t] ->].
  cbn. eauto.
Qed.
Definition lstep cand := gstep (xsat x) (fun _ => cand) (fun t l => random_split e t (grow_size h) l) h.
Definition lstop cand := gstop (xsat x) (fun _ => cand) (fun t l => random_split e t (grow_size h) l) h.
Lemma irep_train_run cnopt init rs : irep_train e h cnopt df cf pc init = Ok rs ->
  exists new, rs_rules rs = rs_rules init ++ new /\
    (forall u r v, new = u ++ r :: v -> lstep (cand_conds e cnopt x (old_possible init) p' n') (rs_rules init) u (labels (frows p)) (labels (frows n)) r) /\
    lstop (cand_conds e cnopt x (old_possible init) p' n') (rs_rules init) new (labels (frows p)) (labels (frows n)).
Proof.
  rewrite irep_train_lab. intros H. binv H. destruct v as [r t]. injection H as <-. cbn [rs_rules]. destruct st_in as [Ip In_].
  apply girep_run with (D := in_frame x) in E; auto.
Qed.
Lemma st_spok : sp_ok (in_frame x) (fun t l => random_split e t (grow_size h) l) h.
Proof. apply lab_sp_ok; [exact Eo|apply (s_prune0 _ _ _ _ _ _ _ _ _ _ ST)|apply (s_prune1 _ _ _ _ _ _ _ _ _ _ ST)]. Qed.

Lemma cand_data cnopt c : In c (cand_conds e cnopt x [] p' n') -> In (cfeat c) (fcols x) /\ exists rw, In rw (frows x) /\ cell (fcols x) (cfeat c) rw = Some (cval c).
Proof.
  unfold cand_conds. destruct cnopt.
  - intros I. apply possible_In in I. destruct I as (f & v & I1 & I2 & ->). cbn. split; auto. apply unique_In in I2. apply column_In; auto.
  - unfold update_possible_conds. cbn [app]. intros I. apply in_flat_map in I. destruct I as (f & I1 & I2). apply in_map_iff in I2.
    destruct I2 as (v & <- & I2). cbn. destruct st_rows as [(R1 & R2 & _) _]. rewrite <- R1. split; auto.
    apply (Permutation_in _ (ok_set e Eo _)) in I2. unfold shared_values in I2. apply filter_In in I2. destruct I2 as [I2 _].
    apply unique_In, column_In in I2. destruct I2 as (rw & I3 & I4). exists rw. split; auto.
Qed.
End S.

(** ** Back to the training table *)
Lemma drop_col_value df cf x rw : drop_col df cf = Ok x -> In rw (frows x) -> exists rw0, In rw0 (frows df) /\ rlab rw0 = rlab rw /\
  forall f v, value_at (fcols x) rw f v -> value_at (fcols df) rw0 f v.
Proof.
  unfold drop_col. destruct (col_pos (fcols df) cf) as [j|]; [|discriminate]. intros H I. injection H as <-. cbn [frows fcols] in *.
  apply in_map_iff in I. destruct I as (rw0 & <- & I). exists rw0. split; auto. split; auto.
  intros f v (k & c & H1 & H2 & H3). cbn [rcells] in H3. rewrite remove_nth_nth in H1, H3.
  destruct (k <? j); [exists k|exists (S k)]; exists c; auto.
Qed.
Lemma covers_label_df df cf x r i : drop_col df cf = Ok x -> covers_label x r i -> covers_label df r i.
Proof.
  intros X (rw & I & L & S). destruct (drop_col_value _ _ _ _ X I) as (rw0 & I0 & L0 & V). exists rw0. split; auto. split; [congruence|].
  intros c Ic. destruct (S c Ic) as (w & W1 & W2). exists w. auto.
Qed.
