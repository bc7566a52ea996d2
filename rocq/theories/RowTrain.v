(** * RowTrain.v : training and calibration on the same rows in another order (proofs for C100) *)
From Verif Require Import BaseFacts CoverFacts CallForm FitRun FitFacts MetricsFacts TransFacts RenSim RenTrain RenFit Extra RowSim Relabel Prop_Fit.
From Coq Require Import Permutation.
Open Scope nat_scope.

Lemma Forall2_perm_r {A B} (R : A -> B -> Prop) l k m : Forall2 R l k -> Permutation k m -> exists l', Permutation l l' /\ Forall2 R l' m.
Proof.
  intros F P. revert l F. induction P; intros l0 F.
  - inversion F; subst. exists []. split; constructor.
  - inversion F as [|a ? l1 ? H F']; subst. destruct (IHP _ F') as (l2 & P2 & F2). exists (a :: l2). split; [constructor; auto|constructor; auto].
  - inversion F as [|a ? l1 ? H F']; subst. inversion F' as [|c ? l2 ? H' F'']; subst. exists (c :: a :: l2). split; [apply perm_swap|repeat constructor; auto].
  - destruct (IHP1 _ F) as (l1 & P' & F1). destruct (IHP2 _ F1) as (l2 & P'' & F2). exists l2. split; [eapply Permutation_trans; eauto|auto].
Qed.
Section TWO.
Variables (a b : frame) (q : list row).
Hypotheses (GA : good_frame a) (GB : good_frame b) (PQ : Permutation (frows a) q) (NA : NoDup (labels (frows a))) (NB : NoDup (labels (frows b))).
Hypothesis HC : forall g, has_col a g = has_col b g.
Hypothesis LEN : length q = length (frows b).
Hypothesis CELL : forall k r r', nth_error q k = Some r -> nth_error (frows b) k = Some r' -> forall g, cell (fcols a) g r = cell (fcols b) g r'.
Definition rl (i i' : nat) : Prop := exists k, nth_error (labels q) k = Some i /\ nth_error (labels (frows b)) k = Some i'.
Lemma NQ : NoDup (labels q).
Proof. eapply Permutation_NoDup; [|exact NA]. apply Permutation_map. exact PQ. Qed.
Lemma rl_eq i i' j j' : rl i i' -> rl j j' -> Nat.eqb i j = Nat.eqb i' j'.
Proof. intros (k & A & B) (k' & A' & B'). eapply NoDup_eqb; [exact NQ|exact NB| | | |]; eauto. Qed.
(** rows that correspond, whatever has been dropped from them *)
Definition rw (ca cb : list pyval) (r r' : row) : Prop := rl (rlab r) (rlab r') /\ forall g, cell ca g r = cell cb g r'.
Definition rows2 (ca cb : list pyval) (l l' : list row) : Prop := exists p, Permutation l p /\ Forall2 (rw ca cb) p l'.
Lemma rows_ab : rows2 (fcols a) (fcols b) (frows a) (frows b).
Proof.
  exists q. split; [exact PQ|]. apply F2_of_nth; [exact LEN|]. intros i r r' R R'. split; [|intros g; eapply CELL; eauto]. exists i. unfold labels. rewrite !nth_error_map, R, R'. auto.
Qed.
Lemma rows_len ca cb l l' : rows2 ca cb l l' -> length l = length l'.
Proof. intros (p & P & F). rewrite (Permutation_length P). eapply Forall2_length; eauto. Qed.
Lemma rows_filter ca cb f g l l' : (forall r r', rw ca cb r r' -> f r = g r') -> rows2 ca cb l l' -> rows2 ca cb (filter f l) (filter g l').
Proof. intros H (p & P & F). exists (filter f p). split; [apply perm_filter; auto|]. apply Forall2_filter; auto. Qed.
Lemma rows_labels ca cb l l' : rows2 ca cb l l' -> Rp rl (labels l) (labels l').
Proof. intros (p & P & F). exists (labels p). split; [apply Permutation_map; auto|]. eapply F2_map; [|exact F]. intros r r' H. apply H. Qed.
Lemma rw_eq ca cb r r' f v : rw ca cb r r' -> cell_eq ca f v r = cell_eq cb f v r'.
Proof. intros [_ H]. unfold cell_eq. rewrite H. reflexivity. Qed.
Lemma rows_app ca cb l l' m m' : rows2 ca cb l l' -> rows2 ca cb m m' -> rows2 ca cb (l ++ m) (l' ++ m').
Proof. intros (p & P & F) (p2 & P2 & F2). exists (p ++ p2). split; [apply Permutation_app; auto|apply Forall2_app; auto]. Qed.

(** *** the class column dropped *)
Lemma rows_drop f x y : drop_col a f = Ok x -> drop_col b f = Ok y -> rows2 (fcols x) (fcols y) (frows x) (frows y).
Proof.
  intros X Y. assert (CX : forall p d r, good_frame p -> drop_col p f = Ok d -> In r (frows p) -> forall g j, col_pos (fcols p) f = Some j -> cell (fcols d) g (mkrow (rlab r) (remove_nth j (rcells r))) = if py_eq f g then None else cell (fcols p) g r).
  { intros p d r G D I g j J. destruct (In_nth_error _ _ I) as (i & R). destruct (drop_col_good _ _ _ G D) as (GX & LX & _).
    assert (R2 : nth_error (frows d) i = Some (mkrow (rlab r) (remove_nth j (rcells r)))) by (unfold drop_col in D; rewrite J in D; injection D as <-; cbn [frows]; rewrite nth_error_map, R; reflexivity).
    rewrite (cell_nth d g i _ GX R2), (cell_nth p g i r G R), (has_drop p f d g G D). destruct (py_eq f g) eqn:F; [rewrite Bool.andb_false_r; reflexivity|]. rewrite Bool.andb_true_r, (column_drop p f d g G D F). reflexivity. }
  assert (JA : exists ja, col_pos (fcols a) f = Some ja) by (unfold drop_col in X; destruct (col_pos (fcols a) f); [eauto|discriminate]). destruct JA as (ja & JA).
  assert (JB : exists jb, col_pos (fcols b) f = Some jb) by (unfold drop_col in Y; destruct (col_pos (fcols b) f); [eauto|discriminate]). destruct JB as (jb & JB).
  exists (map (fun r => mkrow (rlab r) (remove_nth ja (rcells r))) q). split.
  - unfold drop_col in X. rewrite JA in X. injection X as <-. cbn [frows]. apply Permutation_map. exact PQ.
  - assert (FY : frows y = map (fun r => mkrow (rlab r) (remove_nth jb (rcells r))) (frows b)) by (unfold drop_col in Y; rewrite JB in Y; injection Y as <-; reflexivity). rewrite FY.
    apply F2_of_nth; [rewrite !map_length; exact LEN|]. intros i r r' R R'. rewrite nth_error_map in R, R'. destruct (nth_error q i) as [r0|] eqn:R0; [|discriminate R]. destruct (nth_error (frows b) i) as [r1|] eqn:R1; [|discriminate R'].
    cbn [option_map] in R, R'. injection R as <-. injection R' as <-. split.
    + cbn [rlab]. exists i. unfold labels. rewrite !nth_error_map, R0, R1. auto.
    + intros g. rewrite (CX a x r0 GA X (Permutation_in _ (Permutation_sym PQ) (nth_error_In _ _ R0)) g ja JA), (CX b y r1 GB Y (nth_error_In _ _ R1) g jb JB).
      destruct (py_eq f g); [reflexivity|]. eapply CELL; eauto.
Qed.

(** *** calibration *)
Variables (f p : pyval).
Definition fr2 (c d : frame) : Prop := fcols c = fcols a /\ fcols d = fcols b /\ rows2 (fcols a) (fcols b) (frows c) (frows d).
Lemma fr2_has c d h : fr2 c d -> has_col c h = has_col d h.
Proof. intros (C & D & _). specialize (HC h). unfold has_col in *. rewrite C, D. exact HC. Qed.
Lemma fr2_conds cs : forall c d, fr2 c d -> rres fr2 (conds_cover cs c) (conds_cover cs d).
Proof.
  induction cs as [|x cs IH]; intros c d K; cbn [conds_cover]; [exact K|]. unfold cond_covers, select_eq. rewrite (fr2_has c d (cfeat x) K).
  destruct (has_col d (cfeat x)); cbn [bind]; [|reflexivity]. apply IH. destruct K as (C & D & F). split; [auto|]. split; [auto|]. cbn [frows with_rows]. rewrite C, D.
  apply rows_filter; [|exact F]. intros r s R. apply rw_eq; auto.
Qed.
Lemma fr2_len c d : fr2 c d -> length (frows c) = length (frows d). Proof. intros (_ & _ & F). apply (rows_len _ _ _ _ F). Qed.
Lemma fr2_pos c d : fr2 c d -> num_pos c f p = num_pos d f p.
Proof.
  intros K. unfold num_pos. rewrite (fr2_has c d f K). destruct K as (C & D & F). destruct (has_col d f); [|reflexivity]. f_equal. unfold pos_rows. rewrite C, D. eapply rows_len. apply rows_filter; [|exact F].
  intros r s R. apply rw_eq; auto.
Qed.
Lemma fr2_neg c d : fr2 c d -> num_neg c f p = num_neg d f p.
Proof.
  intros K. unfold num_neg. rewrite (fr2_has c d f K). destruct K as (C & D & F). destruct (has_col d f); [|reflexivity]. f_equal. unfold neg_rows. rewrite C, D. eapply rows_len. apply rows_filter; [|exact F].
  intros r s R. f_equal. apply rw_eq; auto.
Qed.
Lemma fr2_ab : fr2 a b. Proof. split; [auto|]. split; [auto|apply rows_ab]. Qed.
Lemma fr2_stats alpha r : rule_class_stats alpha a f p r = rule_class_stats alpha b f p r.
Proof.
  unfold rule_class_stats, rule_covers. pose proof (fr2_conds (conds r) _ _ fr2_ab) as K. destruct (conds_cover (conds r) a) as [c|], (conds_cover (conds r) b) as [d|]; cbn [rres] in K; try contradiction; [|congruence].
  cbn [bind]. rewrite (fr2_pos _ _ K), (fr2_len _ _ K). reflexivity.
Qed.
Lemma fr2_covers rs : rres fr2 (rs_covers rs a) (rs_covers rs b).
Proof.
  unfold rs_covers. destruct (rs_isuniversal rs); [apply fr2_ab|]. destruct (rs_isnull rs); [split; [auto|]; split; [auto|exists []; split; constructor]|].
  eapply rres_bind with (R := Forall2 fr2).
  - apply (mapM_rel eq); [intros r ? <-; apply fr2_conds; apply fr2_ab|]. clear. induction rs; constructor; auto.
  - intros u v K. split; [auto|]. split; [auto|]. cbn [frows with_rows]. clear -K. induction K as [|c d x y (_ & _ & K) H IH]; [exists []; split; constructor|]. cbn [map concat]. apply rows_app; auto.
Qed.
Lemma recal_eq alpha x y : rs_rules x = rs_rules y -> rres (fun x' y' => rs_rules x' = rs_rules y' /\ rs_uncov x' = rs_uncov y') (recalibrate alpha x a f p) (recalibrate alpha y b f p).
Proof.
  intros E. unfold recalibrate. rewrite <- E.
  assert (SF : forall l, check_features a l = check_features b l). { intros l. unfold check_features. rewrite (forallb_ext_in (has_col a) (has_col b)); [reflexivity|]. intros h I. apply HC. }
  rewrite SF. eapply rres_bind; [apply rres_refl|]. intros _ _ _.
  assert (M : mapM (rule_class_stats alpha a f p) (rs_rules x) = mapM (rule_class_stats alpha b f p) (rs_rules x)) by (apply mapM_ext; intros r I; apply fr2_stats).
  rewrite M. destruct (mapM (rule_class_stats alpha b f p) (rs_rules x)) as [la|] eqn:ML; cbn [bind]; [|reflexivity].
  eapply rres_bind; [apply fr2_covers|]. intros ca cb K.
  assert (U : fr2 (with_rows a (drop_labels (frows a) (labels (frows ca)))) (with_rows b (drop_labels (frows b) (labels (frows cb))))).
  { split; [auto|]. split; [auto|]. cbn [frows with_rows]. unfold drop_labels. apply rows_filter; [|apply rows_ab]. intros r s [R _]. f_equal. apply (Rp_mem rl rl_eq); [exact R|]. eapply rows_labels. apply K. }
  rewrite <- (fr2_neg _ _ U), <- (fr2_len _ _ U). eapply rres_bind; [apply rres_refl|]. intros n ? <-. eapply rres_bind; [apply rres_refl|]. intros z ? <-. cbn [rres rs_rules rs_uncov]. auto.
Qed.

(** *** training *)
Variables (e e' : env) (h : hyper).
Hypothesis SPLIT : forall t l l', Rp rl l l' -> Rp rl (fst (random_split e t (grow_size h) l)) (fst (random_split e' t (grow_size h) l')) /\ Rp rl (snd (random_split e t (grow_size h) l)) (snd (random_split e' t (grow_size h) l')).
Variables (xa xb : frame).
Hypotheses (DA : drop_col a f = Ok xa) (DB : drop_col b f = Ok xb) (CE : cn_possible_conds xa = cn_possible_conds xb).
Lemma cn_two : exists cn cn', cn_make a f = Ok cn /\ cn_make b f = Ok cn' /\ cn_conds cn = cn_conds cn' /\ Forall2 (fun p p' => fst p = fst p' /\ Rp rl (snd p) (snd p')) (cn_maps cn) (cn_maps cn') /\ Rp rl (cn_all cn) (cn_all cn').
Proof.
  unfold cn_make. rewrite DA, DB. cbn [bind]. do 2 eexists. split; [reflexivity|]. split; [reflexivity|]. cbn [cn_conds cn_maps cn_all]. split; [exact CE|]. split; [|eapply rows_labels; apply rows_ab].
  rewrite CE. eapply F2_map with (R := eq); [|clear; induction (cn_possible_conds xb); constructor; auto]. intros c ? <-. cbn [fst snd]. split; [reflexivity|].
  eapply rows_labels. apply rows_filter; [|apply (rows_drop f xa xb DA DB)]. intros r r' R. apply rw_eq; auto.
Qed.
Lemma has_class : has_col a f = true /\ has_col b f = true.
Proof. split; [apply (drop_has a f xa DA)|apply (drop_has b f xb DB)]. Qed.
Lemma split_two : Rp rl (labels (pos_rows a f p)) (labels (pos_rows b f p)) /\ Rp rl (labels (neg_rows a f p)) (labels (neg_rows b f p)).
Proof.
  split; eapply rows_labels; unfold pos_rows, neg_rows; (apply rows_filter; [|apply rows_ab]); intros r r' R; [|f_equal]; apply rw_eq; auto.
Qed.
Lemma train_two alg xi : rres (fun x y => rs_rules x = rs_rules y /\ rs_uncov x = rs_uncov y) (train alg e h true a f p xi) (train alg e' h true b f p xi).
Proof.
  destruct cn_two as (cn & cn' & M & M' & C1 & C2 & C3). destruct split_two as [P N]. destruct has_class as [H1 H2].
  destruct alg; cbn [train]; [unfold irep_train|unfold ripper_train]; rewrite M, M'; unfold pos_neg_split; rewrite H1, H2; cbn [bind frows with_rows].
  - rewrite (irep_grow_rp rl rl_eq e e' h SPLIT cn cn' C1 C2 C3 0 (rs_rules xi) _ _ _ _ P N). destruct (irep_grow_cn _ _ _ _ _ _ _) as [ [rs t]|]; cbn [bind rres]; [|reflexivity]. cbn [rs_rules rs_uncov]. auto.
  - pose proof (ripper_rp rl rl_eq e e' h SPLIT cn cn' C1 C2 C3 _ _ _ _ (rs_rules xi) P N) as K.
    cbv zeta. rewrite K. set (z := bind _ _). clearbody z. destruct z; cbn [rres]; auto.
Qed.
End TWO.

(** without pruning the split keeps all examples *)
Lemma split_none rl e e' h : env_ok e -> env_ok e' -> prune_off h = true -> forall t l l', Rp rl l l' ->
  Rp rl (fst (random_split e t (grow_size h) l)) (fst (random_split e' t (grow_size h) l')) /\ Rp rl (snd (random_split e t (grow_size h) l)) (snd (random_split e' t (grow_size h) l')).
Proof.
  intros O O' P t l l' R. assert (G : (grow_size h == 1)%Q) by (unfold grow_size, prune_off in *; apply Qeq_bool_iff in P; rewrite P; reflexivity).
  assert (S : forall e l, env_ok e -> Permutation (fst (random_split e t (grow_size h) l)) l /\ snd (random_split e t (grow_size h) l) = []).
  { intros e0 l0 O0. assert (L := Permutation_length (ok_shuf e0 O0 t l0)). unfold random_split. cbn [fst snd]. rewrite (ok_split_one e0 O0 _ _ G). unfold take, drop. rewrite !norm_idx_in by lia. rewrite !Nat2Z.id, <- L, firstn_all, skipn_all. split; [apply ok_shuf; auto|reflexivity]. }
  destruct (S e l O) as [S1 S2]. destruct (S e' l' O') as [S1' S2']. rewrite S2, S2'. split; [|apply Rp_nil]. destruct R as (q & Q & F).
  destruct (Forall2_perm_r rl q l' _ F (Permutation_sym S1')) as (q' & Q' & F'). exists q'. split; [|exact F']. eapply Permutation_trans; [exact S1|]. eapply Permutation_trans; eauto.
Qed.
