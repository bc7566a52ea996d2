(** * RowSim.v : the CatNap learners on the same examples in another order (proofs for C100) *)
From Verif Require Import BaseFacts CallForm FitRun RenSim Learn Irep Ripper MetricsFacts.
From Coq Require Import Permutation.
Open Scope nat_scope.

(** the parts of the learners that take a function: only its values matter *)
Lemma prune_loop_ext m m' r : (forall x, m x = m' x) -> forall n v best, prune_loop m r n v best = prune_loop m' r n v best.
Proof. intros M. induction n as [|n IH]; intros v best; cbn [prune_loop]; [reflexivity|]. cbn zeta. rewrite M. destruct (m' _) as [ [q|]|]; cbn [bind]; try reflexivity. destruct (Qle_bool v q); apply IH. Qed.
Lemma prune_rule_ext m m' r : (forall x, m x = m' x) -> prune_rule m r = prune_rule m' r.
Proof. intros M. unfold prune_rule. rewrite (prune_loop_ext m m' r M). reflexivity. Qed.
Lemma prune_on_ext m m' i rs r : (forall x, m x = m' x) -> prune_rule_on m i rs r = prune_rule_on m' i rs r.
Proof. intros M. unfold prune_rule_on. rewrite (prune_loop_ext m m' r M). reflexivity. Qed.
Lemma total_ext x x' n rs : (forall l, x l = x' l) -> total_bits x n rs = total_bits x' n rs.
Proof. intros X. unfold total_bits. rewrite X. reflexivity. Qed.
Lemma dls_ext x x' n rs : (forall l, x l = x' l) -> forall pre q, subset_dls x n pre q rs = subset_dls x' n pre q rs.
Proof. intros X. induction rs as [|r rs IH]; intros pre q; cbn [subset_dls]; [reflexivity|]. destruct (theory_bits _ _); cbn [bind]; [|reflexivity]. cbn zeta. rewrite X. destruct (x' _); cbn [bind]; [|reflexivity]. rewrite IH. reflexivity. Qed.
Lemma subset_ext x x' n rs : (forall l, x l = x' l) -> best_subset x n rs = best_subset x' n rs.
Proof. intros X. unfold best_subset. rewrite (dls_ext x x' n rs X). destruct (subset_dls _ _ _ _ _); cbn [bind]; [|reflexivity]. rewrite (total_ext x x' _ _ X). reflexivity. Qed.
Lemma dl_update_ext x x' n r rs st d : (forall l, x l = x' l) -> dl_update x n r rs st d = dl_update x' n r rs st d.
Proof. intros X. unfold dl_update. rewrite X. reflexivity. Qed.
Lemma iter_ext f f' k : (forall t rs, f t rs = f' t rs) -> forall t rs, optimize_iter f k t rs = optimize_iter f' k t rs.
Proof. intros F. induction k as [|k IH]; intros t rs; cbn [optimize_iter]; [reflexivity|]. rewrite F. destruct (f' t rs) as [ [a q]|]; cbn [bind]; [|reflexivity]. destruct (_ && _); [reflexivity|apply IH]. Qed.

Section ROWS.
Variable Rl : nat -> nat -> Prop.
Hypothesis Rl_eq : forall i i' j j', Rl i i' -> Rl j j' -> Nat.eqb i j = Nat.eqb i' j'.
(** the same examples in any order *)
Definition Rp (l l' : list nat) : Prop := exists q, Permutation l q /\ Forall2 Rl q l'.
Lemma Rp_len l l' : Rp l l' -> length l = length l'.
Proof. intros (q & P & F). rewrite (Permutation_length P). eapply Forall2_length; eauto. Qed.
Lemma Rp_nil : Rp [] []. Proof. exists []. split; constructor. Qed.
Lemma perm_filter {A} (p : A -> bool) l k : Permutation l k -> Permutation (filter p l) (filter p k).
Proof.
  induction 1; cbn [filter]; auto.
  - destruct (p x); auto.
  - destruct (p x), (p y); auto. apply perm_swap.
  - eapply Permutation_trans; eauto.
Qed.
Lemma Rp_filter p p' l l' : (forall i i', Rl i i' -> p i = p' i') -> Rp l l' -> Rp (filter p l) (filter p' l').
Proof. intros H (q & P & F). exists (filter p q). split; [apply perm_filter; auto|]. apply Forall2_filter; auto. Qed.
Lemma nmem_perm i l k : Permutation l k -> nmem i l = nmem i k.
Proof. intros P. apply Bool.eq_true_iff_eq. rewrite !nmem_In. split; intros H; [|apply Permutation_sym in P]; eapply Permutation_in; eauto. Qed.
Lemma Rp_mem i i' s s' : Rl i i' -> Rp s s' -> nmem i s = nmem i' s'.
Proof. intros R (q & P & F). rewrite (nmem_perm i _ _ P). eapply F2_existsb; [|exact F]. intros a b H. cbv beta. apply Rl_eq; auto. Qed.
Lemma Rp_minus a a' b b' : Rp a a' -> Rp b b' -> Rp (set_minus a b) (set_minus a' b').
Proof. intros A B. unfold set_minus. apply Rp_filter; auto. intros i i' R. f_equal. apply Rp_mem; auto. Qed.

Variables e e' : env.
Variable h : hyper.
Hypothesis SPLIT : forall t l l', Rp l l' -> Rp (fst (random_split e t (grow_size h) l)) (fst (random_split e' t (grow_size h) l')) /\ Rp (snd (random_split e t (grow_size h) l)) (snd (random_split e' t (grow_size h) l')).
Variables cn cn' : catnap.
Hypothesis C_conds : cn_conds cn = cn_conds cn'.
Hypothesis C_maps : Forall2 (fun p p' => fst p = fst p' /\ Rp (snd p) (snd p')) (cn_maps cn) (cn_maps cn').
Hypothesis C_all : Rp (cn_all cn) (cn_all cn').
Lemma get_rp c : Rp (cn_get cn c) (cn_get cn' c).
Proof.
  unfold cn_get. pose proof (F2_find _ (fun p => cond_eqb (fst p) c) (fun p => cond_eqb (fst p) c) _ _ (fun a b H => f_equal (fun x => cond_eqb x c) (proj1 H)) (Forall2_rev _ _ _ C_maps)) as K.
  destruct (find _ (rev (cn_maps cn))), (find _ (rev (cn_maps cn'))); cbn [orel] in K; try contradiction; [apply K|apply Rp_nil].
Qed.
Lemma cond_rp c l l' : Rp l l' -> Rp (cn_cond_covers cn c l) (cn_cond_covers cn' c l').
Proof. intros L. unfold cn_cond_covers. apply Rp_filter; auto. intros i j R. apply Rp_mem; auto. apply get_rp. Qed.
Lemma maps_rp i i' cs : Rl i i' -> forallb (fun s => nmem i s) (map (cn_get cn) cs) = forallb (fun s => nmem i' s) (map (cn_get cn') cs).
Proof. intros R. induction cs as [|c cs IH]; cbn [map forallb]; [reflexivity|]. rewrite IH. f_equal. apply Rp_mem; auto. apply get_rp. Qed.
Lemma cov_rp r l l' : Rp l l' -> Rp (cn_rule_covers cn r l) (cn_rule_covers cn' r l').
Proof.
  intros L. unfold cn_rule_covers. destruct (conds r) as [|c cs] eqn:E.
  - apply Rp_filter; auto. intros i j R. apply Rp_mem; auto.
  - cbn zeta. apply Rp_filter; auto. intros i j R. apply maps_rp; auto.
Qed.
Lemma covs_rp rs l l' : Rp l l' -> Rp (cn_rs_covers cn rs l) (cn_rs_covers cn' rs l').
Proof.
  intros L. unfold cn_rs_covers. assert (N := Rp_len _ _ L). destruct (rs_isuniversal rs); [destruct l, l'; try discriminate N; auto|]. destruct (rs_isnull rs); [apply Rp_nil|].
  cbn zeta. apply Rp_filter; auto. intros i j R. induction rs as [|r rs IH]; cbn [map existsb]; [reflexivity|]. f_equal; [apply maps_rp; auto|]. 
  clear - R Rl_eq C_maps C_all. induction rs as [|r rs IH]; cbn [map existsb]; [reflexivity|]. f_equal; [apply maps_rp; auto|exact IH].
Qed.
Lemma rm_rp r p p' n n' : Rp p p' -> Rp n n' -> Rp (fst (rm_rule_covers_cn cn r p n)) (fst (rm_rule_covers_cn cn' r p' n')) /\ Rp (snd (rm_rule_covers_cn cn r p n)) (snd (rm_rule_covers_cn cn' r p' n')).
Proof. intros P N. unfold rm_rule_covers_cn. cbn [fst snd]. split; apply Rp_minus; auto; apply cov_rp; auto. Qed.
Lemma scan_ext {C} (g g' : C -> Q) l : (forall c, g c = g' c) -> forall b, best_scan g b l = best_scan g' b l.
Proof. intros G. induction l as [|c l IH]; intros b; cbn [best_scan]; [reflexivity|]. rewrite G. destruct b as [ [x q]|]; [destruct (Qlt_b q (g' c))|]; apply IH. Qed.
Ltac lens := repeat match goal with H : Rp ?a ?b |- context [length ?a] => rewrite (Rp_len _ _ H) end.
Lemma succ_rp r p p' n n' : Rp p p' -> Rp n n' -> best_rule_successor_cn cn r p n = best_rule_successor_cn cn' r p' n'.
Proof.
  intros P N. unfold best_rule_successor_cn. cbn zeta. assert (RP := cov_rp r p p' P). assert (RN := cov_rp r n n' N). rewrite C_conds.
  rewrite (scan_ext _ (fun c => gain_cn cn' c (cn_rule_covers cn' r p') (cn_rule_covers cn' r n')) (cn_conds cn')); [reflexivity|].
  intros c. unfold gain_cn. rewrite (Rp_len _ _ RP), (Rp_len _ _ RN), (Rp_len _ _ (cond_rp c _ _ RP)), (Rp_len _ _ (cond_rp c _ _ RN)). reflexivity.
Qed.
Lemma grow_loop_rp k p p' n n' mc ms : Rp p p' -> Rp n n' -> forall r, grow_loop_cn k cn p n mc ms r = grow_loop_cn k cn' p' n' mc ms r.
Proof.
  intros P N. induction k as [|k IH]; intros r; cbn [grow_loop_cn]; [reflexivity|]. cbn zeta.
  rewrite (Rp_len _ _ (cov_rp r _ _ N)), (Rp_len _ _ (cov_rp r _ _ P)), (succ_rp r _ _ _ _ P N).
  destruct (_ =? 0); [reflexivity|]. destruct (user_halt _ _ _ _ _); [reflexivity|]. destruct (best_rule_successor_cn cn' r p' n'); auto.
Qed.
Lemma grow_rp p p' n n' mc ms r : Rp p p' -> Rp n n' -> grow_rule_cn cn p n mc ms r = grow_rule_cn cn' p' n' mc ms r.
Proof. intros P N. unfold grow_rule_cn. rewrite (Rp_len _ _ N). apply grow_loop_rp; auto. Qed.
Lemma exc_rp rs p p' n n' : Rp p p' -> Rp n n' -> exceptions_cn cn rs p n = exceptions_cn cn' rs p' n'.
Proof. intros P N. unfold exceptions_cn. rewrite (Rp_len _ _ P), (Rp_len _ _ N), (Rp_len _ _ (covs_rp rs _ _ P)), (Rp_len _ _ (covs_rp rs _ _ N)). reflexivity. Qed.
Lemma irep_loop_rp : forall k t rs p p' n n', Rp p p' -> Rp n n' -> irep_loop_cn k e h cn t rs p n = irep_loop_cn k e' h cn' t rs p' n'.
Proof.
  induction k as [|k IH]; intros t rs p p' n n' P N; cbn [irep_loop_cn]; [reflexivity|]. rewrite (Rp_len _ _ P), (Rp_len _ _ N).
  destruct (_ =? 0); [reflexivity|]. destruct (stop_early _ _ _ _ _ _ _); [reflexivity|].
  destruct (SPLIT t p p' P) as [PG PP]. destruct (SPLIT (S t) n n' N) as [NG NP].
  destruct (random_split e t (grow_size h) p) as [pg pp], (random_split e' t (grow_size h) p') as [pg' pp'], (random_split e (S t) (grow_size h) n) as [ng np], (random_split e' (S t) (grow_size h) n') as [ng' np'].
  cbn [fst snd] in PG, PP, NG, NP. rewrite (grow_rp pg pg' ng ng' _ _ _ PG NG). destruct (grow_rule_cn cn' pg' ng' _ _ _) as [g|]; cbn [bind]; [|reflexivity].
  destruct (prune_off h); [apply IH; auto; apply Rp_minus; auto; apply cov_rp; auto|].
  rewrite (prune_rule_ext _ (fun r => irep_metric (length pp') (length np') (length (cn_rule_covers cn' r pp')) (length (cn_rule_covers cn' r np'))))
    by (intros x; rewrite (Rp_len _ _ PP), (Rp_len _ _ NP), (Rp_len _ _ (cov_rp x _ _ PP)), (Rp_len _ _ (cov_rp x _ _ NP)); reflexivity).
  destruct (prune_rule _ g) as [ [b|]|]; cbn [bind]; try reflexivity.
  rewrite (Rp_len _ _ (cov_rp b _ _ PP)), (Rp_len _ _ (cov_rp b _ _ NP)). destruct (bad_precision _); [reflexivity|].
  destruct (rm_rp b _ _ _ _ P N) as [A1 A2]. destruct (rm_rule_covers_cn cn b p n), (rm_rule_covers_cn cn' b p' n'). cbn [fst snd] in A1, A2. apply IH; auto.
Qed.
Lemma irep_grow_rp t rs p p' n n' : Rp p p' -> Rp n n' -> irep_grow_cn e h cn t rs p n = irep_grow_cn e' h cn' t rs p' n'.
Proof. intros P N. unfold irep_grow_cn. rewrite (Rp_len _ _ P). apply irep_loop_rp; auto. Qed.
Lemma ripper_loop_rp p0 p0' n0 n0' : Rp p0 p0' -> Rp n0 n0' -> forall k t rs st d p p' n n', Rp p p' -> Rp n n' ->
  ripper_loop_cn k e h cn p0 n0 t rs st d p n = ripper_loop_cn k e' h cn' p0' n0' t rs st d p' n'.
Proof.
  intros P0 N0. induction k as [|k IH]; intros t rs st d p p' n n' P N; cbn [ripper_loop_cn]; [reflexivity|]. rewrite (Rp_len _ _ P), (Rp_len _ _ N).
  destruct (_ || _); [reflexivity|]. destruct (stop_early _ _ _ _ _ _ _); [reflexivity|].
  destruct (SPLIT t p p' P) as [PG PP]. destruct (SPLIT (S t) n n' N) as [NG NP].
  destruct (random_split e t (grow_size h) p) as [pg pp], (random_split e' t (grow_size h) p') as [pg' pp'], (random_split e (S t) (grow_size h) n) as [ng np], (random_split e' (S t) (grow_size h) n') as [ng' np'].
  cbn [fst snd] in PG, PP, NG, NP. rewrite (Rp_len _ _ PG). destruct (_ =? 0); [reflexivity|].
  rewrite (grow_rp pg pg' ng ng' _ _ _ PG NG). destruct (grow_rule_cn cn' pg' ng' _ _ _) as [g|]; cbn [bind]; [|reflexivity]. destruct (rule_isempty g); [reflexivity|].
  rewrite (prune_rule_ext _ (fun r => ripper_grow_metric (length (cn_rule_covers cn' r pp')) (length (cn_rule_covers cn' r np'))))
    by (intros x; rewrite (Rp_len _ _ (cov_rp x _ _ PP)), (Rp_len _ _ (cov_rp x _ _ NP)); reflexivity).
  destruct (if prune_off h then _ else _) as [ [b|]|]; cbn [bind]; try reflexivity. cbn zeta.
  rewrite (dl_update_ext (fun x => exceptions_cn cn x p0 n0) (fun x => exceptions_cn cn' x p0' n0')) by (intros x; apply exc_rp; auto). rewrite C_conds.
  destruct (dl_update _ _ _ _ _ _) as [ [st' d']|]; cbn [bind]; [|reflexivity].
  destruct (rm_rp b _ _ _ _ P N) as [A1 A2]. destruct (rm_rule_covers_cn cn b p n), (rm_rule_covers_cn cn' b p' n'). cbn [fst snd] in A1, A2. apply IH; auto.
Qed.
Lemma ripper_grow_rp t rs p p' n n' : Rp p p' -> Rp n n' -> ripper_grow_cn e h cn t rs p n = ripper_grow_cn e' h cn' t rs p' n'.
Proof. intros P N. unfold ripper_grow_cn. rewrite (Rp_len _ _ P). apply ripper_loop_rp; auto. Qed.
Lemma optimize_loop_rp orig dl p0 p0' n0 n0' : Rp p0 p0' -> Rp n0 n0' -> forall todo t i new p p' n n', Rp p p' -> Rp n n' ->
  optimize_loop_cn e h cn orig dl p0 n0 t i todo new p n = optimize_loop_cn e' h cn' orig dl p0' n0' t i todo new p' n'.
Proof.
  intros P0 N0. induction todo as [|r todo IH]; intros t i new p p' n n' P N; cbn [optimize_loop_cn]; [reflexivity|].
  destruct (SPLIT t p p' P) as [PG PP]. destruct (SPLIT (S t) n n' N) as [NG NP].
  destruct (random_split e t (grow_size h) p) as [pg pp], (random_split e' t (grow_size h) p') as [pg' pp'], (random_split e (S t) (grow_size h) n) as [ng np], (random_split e' (S t) (grow_size h) n') as [ng' np'].
  cbn [fst snd] in PG, PP, NG, NP. rewrite (Rp_len _ _ PG). destruct (_ =? 0); [reflexivity|].
  rewrite (Rp_len _ _ P), (Rp_len _ _ N). destruct (stop_early_opt _ _ _ _) as [ [|]|]; cbn [bind]; try reflexivity. cbn zeta.
  assert (M : forall x, accuracy_metric (length pp) (length np) (length (cn_rule_covers cn x pp)) (length (cn_rule_covers cn x np)) =
    accuracy_metric (length pp') (length np') (length (cn_rule_covers cn' x pp')) (length (cn_rule_covers cn' x np'))).
  { intros x. rewrite (Rp_len _ _ PP), (Rp_len _ _ NP), (Rp_len _ _ (cov_rp x _ _ PP)), (Rp_len _ _ (cov_rp x _ _ NP)). reflexivity. }
  rewrite (grow_rp pg pg' ng ng' _ _ (Rule_ []) PG NG). destruct (grow_rule_cn cn' pg' ng' _ _ (Rule_ [])) as [g|]; cbn [bind]; [|reflexivity].
  rewrite (prune_on_ext _ (fun x => accuracy_metric (length pp') (length np') (length (cn_rule_covers cn' x pp')) (length (cn_rule_covers cn' x np'))) i (i_replaced orig i (Some g)) g M).
  destruct (prune_rule_on _ i (i_replaced orig i (Some g)) g) as [a|]; cbn [bind]; [|reflexivity].
  rewrite (grow_rp pg pg' ng ng' _ _ r PG NG). destruct (grow_rule_cn cn' pg' ng' _ _ r) as [g2|]; cbn [bind]; [|reflexivity].
  rewrite (prune_on_ext _ (fun x => accuracy_metric (length pp') (length np') (length (cn_rule_covers cn' x pp')) (length (cn_rule_covers cn' x np'))) i (i_replaced orig i (Some g2)) g2 M).
  destruct (prune_rule_on _ i (i_replaced orig i (Some g2)) g2) as [b|]; cbn [bind]; [|reflexivity].
  rewrite !(total_ext (fun x => exceptions_cn cn x p0 n0) (fun x => exceptions_cn cn' x p0' n0')) by (intros x; apply exc_rp; auto). rewrite C_conds.
  destruct (if opt_neq a r then _ else _) as [q1|]; cbn [bind]; [|reflexivity]. destruct (if opt_neq b r then _ else _) as [q2|]; cbn [bind]; [|reflexivity].
  destruct (choose_rule _ _ _ _ _ _ _ _) as [nw|]; cbn [bind]; [|reflexivity].
  destruct (rm_rp r _ _ _ _ P N) as [A1 A2]. destruct (rm_rule_covers_cn cn r p n), (rm_rule_covers_cn cn' r p' n'). cbn [fst snd] in A1, A2.
  rewrite (Rp_len _ _ A1). destruct (_ =? 0); [reflexivity|]. apply IH; auto.
Qed.
Lemma optimize_rp p p' n n' t rs : Rp p p' -> Rp n n' -> optimize_cn e h cn t rs p n = optimize_cn e' h cn' t rs p' n'.
Proof.
  intros P N. unfold optimize_cn. rewrite (subset_ext (fun x => exceptions_cn cn x p n) (fun x => exceptions_cn cn' x p' n')) by (intros x; apply exc_rp; auto). rewrite C_conds.
  destruct (best_subset _ _ _) as [ [s q]|]; cbn [bind]; [|reflexivity]. rewrite (optimize_loop_rp rs q p p' n n' P N rs t 0 (map Some rs) p p' n n' P N). reflexivity.
Qed.
Lemma cover_rp p p' n n' t rs : Rp p p' -> Rp n n' -> cover_remaining_cn e h cn t rs p n = cover_remaining_cn e' h cn' t rs p' n'.
Proof. intros P N. unfold cover_remaining_cn. rewrite (Rp_len _ _ P). destruct (1 <=? _); [apply ripper_grow_rp; auto|reflexivity]. Qed.
Lemma ripper_rp p p' n n' init : Rp p p' -> Rp n n' ->
  ('(rs1, t1) <- ripper_grow_cn e h cn 0 init p n ;; '(rs2, t2) <- optimize_iter (fun t rs => optimize_cn e h cn t rs p n) (h_k h) t1 rs1 ;;
    '(rs3, _) <- cover_remaining_cn e h cn t2 rs2 p n ;; '(rs4, _) <- best_subset (fun x => exceptions_cn cn x p n) (length (cn_conds cn)) rs3 ;; Ok (Ruleset_ rs4)) =
  ('(rs1, t1) <- ripper_grow_cn e' h cn' 0 init p' n' ;; '(rs2, t2) <- optimize_iter (fun t rs => optimize_cn e' h cn' t rs p' n') (h_k h) t1 rs1 ;;
    '(rs3, _) <- cover_remaining_cn e' h cn' t2 rs2 p' n' ;; '(rs4, _) <- best_subset (fun x => exceptions_cn cn' x p' n') (length (cn_conds cn')) rs3 ;; Ok (Ruleset_ rs4)).
Proof.
  intros P N. rewrite (ripper_grow_rp 0 init _ _ _ _ P N). destruct (ripper_grow_cn _ _ _ _ _ _ _) as [ [r1 t1]|]; cbn [bind]; [|reflexivity].
  rewrite (iter_ext _ (fun t rs => optimize_cn e' h cn' t rs p' n')) by (intros; apply optimize_rp; auto). destruct (optimize_iter _ _ _ _) as [ [r2 t2]|]; cbn [bind]; [|reflexivity].
  rewrite (cover_rp _ _ _ _ t2 r2 P N). destruct (cover_remaining_cn _ _ _ _ _ _ _) as [ [r3 t3]|]; cbn [bind]; [|reflexivity].
  rewrite (subset_ext (fun x => exceptions_cn cn x p n) (fun x => exceptions_cn cn' x p' n')) by (intros x; apply exc_rp; auto). rewrite C_conds. reflexivity.
Qed.
End ROWS.
