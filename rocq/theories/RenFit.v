(** * RenFit.v : training, recalibration and binning of tables under other names *)
From Verif Require Import RenameSpec RenSim RenTrain BaseFacts CoverFacts CallForm FitRun MetricsFacts TransFacts ClfFacts PrepFacts.
Open Scope nat_scope.

Definition rrule xa xb a := Rr (rc a xa xb).
(** ** training *)
Section TRAIN.
Variables (f f' p p' : pyval) (a b xa xb : frame).
Hypothesis RN : ren f f' p p' a b xa xb.
Variables (e e' : env).
Hypothesis E_shuf : forall t l l', Forall2 (rl a b) l l' -> Forall2 (rl a b) (shuf e t l) (shuf e' t l').
Hypothesis E_split : forall s n, e_split e s n = e_split e' s n.
Hypothesis E_set : forall l, set_order e l = set_order e' l.
Hypothesis E_in : forall l v, In v (set_order e l) -> In v l.
Let R := Forall2 (Rr (rc a xa xb)).
Lemma train_rn alg h cnopt : (cnopt = true \/ forall i j, i < length (frows a) -> j < length (fcols xa) -> val xa i j = val xb i j) ->
  rres (fun x y => R (rs_rules x) (rs_rules y) /\ rs_uncov x = None /\ rs_uncov y = None) (train alg e h cnopt a f p (Ruleset_ [])) (train alg e' h cnopt b f' p' (Ruleset_ [])).
Proof.
  intros K. destruct (split_rn _ _ _ _ _ _ _ _ RN) as (pa & na & pb & nb & pa' & na' & pb' & nb' & S1 & S2 & LP & LN & D1 & D2 & D3 & D4 & C1 & C2 & C3 & C4 & XP & XN).
  destruct (cn_rn _ _ _ _ _ _ _ _ RN) as (cn & cn' & M1 & M2 & H1 & H2 & H3).
  destruct cnopt.
  - destruct alg; cbn [train]; unfold irep_train, ripper_train; rewrite M1, M2, S1, S2; cbn [bind].
    + eapply rres_bind; [eapply (irep_grow_cn_rel (rl a b) (rl_eq _ _ _ _ _ _ _ _ RN) (rc a xa xb) (rc_eq _ _ _ _ _ _ _ _ RN) e e' E_shuf E_split cn cn' H1 H2 H3); [constructor|exact LP|exact LN]|].
      intros [r1 t1] [r1' t1'] [F1 _]. split; auto.
    + pose proof (ripper_cn_rel (rl a b) (rl_eq _ _ _ _ _ _ _ _ RN) (rc a xa xb) (rc_eq _ _ _ _ _ _ _ _ RN) (rc_str _ _ _ _ _ _ _ _ RN) e e' E_shuf E_split cn cn' H1 H2 H3 h _ _ _ _ (rs_rules (Ruleset_ [])) (rs_rules (Ruleset_ [])) LP LN ltac:(constructor)) as T.
      clear -T. unfold rres in T |- *.
      repeat (match goal with |- context [bind ?x _] => destruct x as [[]|]; cbn [bind] in T |- * end; repeat match goal with q : (_ * _)%type |- _ => destruct q end; cbn [bind] in T |- *); try exact T; try contradiction; cbn [rs_rules rs_uncov Ruleset_]; auto.
  - destruct K as [K|K]; [discriminate|].
    assert (W : forall old old' p0 p0' n0 n0', Forall2 (rc a xa xb) old old' -> Forall2 (rx xa xb) p0 p0' -> Forall2 (rx xa xb) n0 n0' ->
      Forall2 (rc a xa xb) (update_possible_conds (set_order e) old (mkframe (fcols xa) p0) (mkframe (fcols xa) n0)) (update_possible_conds (set_order e') old' (mkframe (fcols xb) p0') (mkframe (fcols xb) n0')))
      by (intros; apply (upd_rn _ _ _ _ _ _ _ _ RN K); auto).
    assert (PO := W [] [] _ _ _ _ (Forall2_nil _) XP XN).
    assert (Q : forall x, mkframe (fcols x) (frows x) = x) by (intros []; reflexivity).
    assert (Q1 : mkframe (fcols xa) (frows pa') = pa') by (rewrite <- C1; auto). assert (Q2 : mkframe (fcols xa) (frows na') = na') by (rewrite <- C2; auto).
    assert (Q3 : mkframe (fcols xb) (frows pb') = pb') by (rewrite <- C3; auto). assert (Q4 : mkframe (fcols xb) (frows nb') = nb') by (rewrite <- C4; auto).
    rewrite Q1, Q2, Q3, Q4 in PO.
    destruct alg; cbn [train]; unfold irep_train, ripper_train; rewrite S1, S2; cbn [bind]; rewrite D1, D2, D3, D4; cbn [bind]; rewrite C1, C3; cbn [rs_possible rs_rules Ruleset_].
    + eapply rres_bind; [eapply (irep_grow_rel (rl a b) (rl_eq _ _ _ _ _ _ _ _ RN) (rc a xa xb) (rc_eq _ _ _ _ _ _ _ _ RN) e e' E_shuf E_split (fcols xa) (fcols xb) (rx xa xb) (rx_lab _ _ _ _ _ _ _ _ RN) (rx_cell _ _ _ _ _ _ _ _ RN)); [exact PO|constructor|exact XP|exact XN]|].
      intros [r1 t1] [r1' t1'] [F1 _]. split; auto.
    + pose proof (ripper_df_rel (rl a b) (rl_eq _ _ _ _ _ _ _ _ RN) (rc a xa xb) (rc_eq _ _ _ _ _ _ _ _ RN) (rc_str _ _ _ _ _ _ _ _ RN) e e' E_shuf E_split (fcols xa) (fcols xb) (rx xa xb) (rx_lab _ _ _ _ _ _ _ _ RN) (rx_cell _ _ _ _ _ _ _ _ RN) W h _ _ _ _ _ _ [] [] PO XP XN ltac:(constructor)) as T.
      clear -T.
      assert (Z : forall A B (x : res A) (g : A -> res (list rule)) (k : A -> res ruleset) (x' : res B) g' k', (forall a0, k a0 = (r <- g a0 ;; Ok (Ruleset_ r))) -> (forall a0, k' a0 = (r <- g' a0 ;; Ok (Ruleset_ r))) ->
        rres R (bind x g) (bind x' g') -> rres (fun x y => R (rs_rules x) (rs_rules y) /\ rs_uncov x = None /\ rs_uncov y = None) (bind x k) (bind x' k')).
      { clear. intros A B x g k x' g' k' H H' K. destruct x as [a0|], x' as [b0|]; cbn [bind] in *; rewrite ?H, ?H'; try (destruct (g a0)); try (destruct (g' b0)); cbn [bind rres] in *; try contradiction; auto. }
      refine (Z _ _ _ _ _ _ _ _ _ _ T); clear; intros [r1 t1]; (destruct (optimize_iter _ _ _ _) as [[r2 t2]|]; cbn [bind]; [|reflexivity]); (destruct (cover_remaining _ _ _ _ _ _ _ _) as [[[r3 po3] t3]|]; cbn [bind]; [|reflexivity]);
        (destruct (best_subset _ _ _) as [[r4 q4]|]; reflexivity).
Qed.
End TRAIN.

(** ** recalibration *)
Section REC.
Variables (f f' p p' : pyval) (a b xa xb : frame).
Hypothesis RN : ren f f' p p' a b xa xb.
Notation RC := (rc a xa xb).
Notation RR := (Rr RC).
Definition lf (c d : frame) : Prop := fcols c = fcols a /\ fcols d = fcols b /\ Forall2 (rr a b) (frows c) (frows d).
Lemma lf_ab : lf a b. Proof. split; [auto|]. split; [auto|]. apply (rr_all _ _ _ _ _ _ _ _ RN). Qed.
Lemma rf_has g g' : rf xa xb g g' -> has_col a g = true /\ has_col b g' = true.
Proof.
  intros (j & A & B). destruct (drop_col_values _ _ _ (rn_a _ _ _ _ _ _ _ _ RN) (rn_xa _ _ _ _ _ _ _ _ RN)) as [Pa _]. destruct (drop_col_values _ _ _ (rn_b _ _ _ _ _ _ _ _ RN) (rn_xb _ _ _ _ _ _ _ _ RN)) as [Pb _].
  split; apply has_col_iff.
  - apply Pa. exists g. split; [eapply nth_error_In; eauto|]. apply (name_refl (fcols xa)); [apply (rn_na _ _ _ _ _ _ _ _ RN)|eapply nth_error_In; eauto].
  - apply Pb. exists g'. split; [eapply nth_error_In; eauto|]. apply (name_refl (fcols xb)); [apply (rn_nb _ _ _ _ _ _ _ _ RN)|eapply nth_error_In; eauto].
Qed.
Lemma rc_rf c c' : RC c c' -> rf xa xb (cfeat c) (cfeat c').
Proof. intros (j & A & B & _). exists j. auto. Qed.
Lemma rconds_rel cs cs' : Forall2 RC cs cs' -> forall c d, lf c d -> rres lf (conds_cover cs c) (conds_cover cs' d).
Proof.
  intros F. induction F as [|x x' t t' X F IH]; intros c d (C & D & K); cbn [conds_cover]; [split; auto|].
  destruct (rf_has _ _ (rc_rf _ _ X)) as [H1 H2]. unfold cond_covers, select_eq.
  assert (HC : has_col c (cfeat x) = true) by (unfold has_col in *; rewrite C; auto). assert (HD : has_col d (cfeat x') = true) by (unfold has_col in *; rewrite D; auto). rewrite HC, HD. cbn [bind].
  apply IH. split; [auto|]. split; [auto|]. cbn [frows with_rows]. rewrite C, D. apply Forall2_filter; auto. intros r s R. apply (rr_cell _ _ _ _ _ _ _ _ RN); auto.
Qed.
Lemma lf_has c d : lf c d -> has_col c f = true /\ has_col d f' = true.
Proof. intros (C & D & _). unfold has_col. rewrite C, D. apply (has_f _ _ _ _ _ _ _ _ RN). Qed.
Lemma lf_pos c d : lf c d -> num_pos c f p = num_pos d f' p'.
Proof.
  intros K. unfold num_pos. destruct (lf_has _ _ K) as [-> ->]. destruct K as (C & D & F). f_equal. unfold pos_rows. rewrite C, D. eapply Forall2_length. apply Forall2_filter; [|exact F].
  intros r s R. apply (rr_pos _ _ _ _ _ _ _ _ RN); auto.
Qed.
Lemma lf_neg c d : lf c d -> num_neg c f p = num_neg d f' p'.
Proof.
  intros K. unfold num_neg. destruct (lf_has _ _ K) as [-> ->]. destruct K as (C & D & F). f_equal. unfold neg_rows. rewrite C, D. eapply Forall2_length. apply Forall2_filter; [|exact F].
  intros r s R. f_equal. apply (rr_pos _ _ _ _ _ _ _ _ RN); auto.
Qed.
Lemma lf_len c d : lf c d -> length (frows c) = length (frows d).
Proof. intros (_ & _ & F). apply (Forall2_length _ _ _ F). Qed.
Lemma lf_labels c d : lf c d -> Forall2 (rl a b) (labels (frows c)) (labels (frows d)).
Proof. intros (_ & _ & F). unfold labels. eapply F2_map; [|exact F]. intros r s R. apply rr_lab; auto. Qed.
Lemma stats_rn alpha r r' : RR r r' -> rres RR (rule_class_stats alpha a f p r) (rule_class_stats alpha b f' p' r').
Proof.
  intros [C _]. unfold rule_class_stats, rule_covers. eapply rres_bind; [apply (rconds_rel _ _ C _ _ lf_ab)|]. intros c d K. rewrite (lf_pos _ _ K), (lf_len _ _ K).
  eapply rres_bind; [apply rres_refl|]. intros n ? <-. eapply rres_bind; [apply rres_refl|]. intros q ? <-. split; auto.
Qed.
Lemma mapM_rel {A B C D} (R : A -> B -> Prop) (S : C -> D -> Prop) g g' l l' : (forall x y, R x y -> rres S (g x) (g' y)) -> Forall2 R l l' -> rres (Forall2 S) (mapM g l) (mapM g' l').
Proof.
  intros H F. induction F as [|x y l l' RXY F IH]; cbn [mapM]; [constructor|]. eapply rres_bind; [apply H; auto|]. intros u v K. eapply rres_bind; [exact IH|]. intros us vs KS. constructor; auto.
Qed.
Lemma covers_rn rs rs' : Forall2 RR rs rs' -> rres lf (rs_covers rs a) (rs_covers rs' b).
Proof.
  intros F. unfold rs_covers. rewrite (isuniversal_rel _ _ _ F), (isnull_rel _ _ _ F). destruct (rs_isuniversal rs'); [apply lf_ab|].
  destruct (rs_isnull rs'); [split; [auto|]; split; [auto|constructor]|]. eapply rres_bind; [eapply mapM_rel; [|exact F]; intros r r' [C _]; apply (rconds_rel _ _ C _ _ lf_ab)|].
  intros u v K. split; [auto|]. split; [auto|]. cbn [frows with_rows]. clear -K. induction K as [|c d x y (_ & _ & K) H IH]; [constructor|]. cbn [map concat]. apply Forall2_app; auto.
Qed.
Lemma uncov_rn ls ls' : Forall2 (rl a b) ls ls' -> lf (with_rows a (drop_labels (frows a) ls)) (with_rows b (drop_labels (frows b) ls')).
Proof.
  intros K. split; [auto|]. split; [auto|]. cbn [frows with_rows]. unfold drop_labels. apply Forall2_filter; [|apply lf_ab]. intros r s R.
  rewrite (nmem_rel (rl a b) (rl_eq _ _ _ _ _ _ _ _ RN) _ (rlab s) _ ls'); auto. apply rr_lab; auto.
Qed.
Lemma selected_rn rs rs' : Forall2 RR rs rs' -> Forall2 (rf xa xb) (selected_features rs) (selected_features rs').
Proof.
  intros F. unfold selected_features. apply (F2_dedup (rf xa xb)); [intros; apply (rf_eq _ _ _ _ _ _ _ _ RN); auto| |constructor].
  eapply F2_flat_map; [|exact F]. intros r r' [C _]. eapply F2_map; [|exact C]. intros; apply rc_rf; auto.
Qed.
Lemma check_rn l l' : Forall2 (rf xa xb) l l' -> check_features a l = Ok tt /\ check_features b l' = Ok tt.
Proof.
  intros F. unfold check_features. assert (E : forallb (has_col a) l = true /\ forallb (has_col b) l' = true); [|destruct E as [-> ->]; auto].
  induction F as [|g g' l l' G F [I1 I2]]; [auto|]. cbn [forallb]. destruct (rf_has _ _ G) as [-> ->]. auto.
Qed.
Definition rres_same (x y : ruleset) : Prop := Forall2 RR (rs_rules x) (rs_rules y) /\ rs_uncov x = rs_uncov y.
Lemma recal_rn alpha x y : Forall2 RR (rs_rules x) (rs_rules y) -> rres rres_same (recalibrate alpha x a f p) (recalibrate alpha y b f' p').
Proof.
  intros F. unfold recalibrate. destruct (check_rn _ _ (selected_rn _ _ F)) as [-> ->]. cbn [bind].
  eapply rres_bind; [eapply mapM_rel; [|exact F]; intros; apply stats_rn; auto|]. intros u v K.
  eapply rres_bind; [apply covers_rn; exact F|]. intros c d L. assert (U := uncov_rn _ _ (lf_labels _ _ L)). rewrite (lf_neg _ _ U), (lf_len _ _ U).
  eapply rres_bind; [apply rres_refl|]. intros n ? <-. eapply rres_bind; [apply rres_refl|]. intros q ? <-. split; auto.
Qed.

(** ** removal of duplicates *)
Lemma nodup_strs_rel l l' : Forall2 RC l l' -> NoDup (map cond_str l) -> NoDup (map cond_str l').
Proof.
  intros F. induction F as [|c c' l l' C F IH]; intros N; [constructor|]. cbn [map] in *. inversion N as [|? ? N1 N2]; subst. constructor; auto.
  intros I. apply N1. assert (S := str_in_rel RC (rc_str _ _ _ _ _ _ _ _ RN) _ _ _ _ C F). apply str_in_In. rewrite S. apply str_in_In. exact I.
Qed.
Lemma dups_rel H H' l l' : Forall2 RR l l' -> forall s s', Forall2 RR s s' -> (forall r, In r (s ++ l) -> NoDup (cond_strs r)) ->
  Forall2 RR (remove_dups_from H s l) (remove_dups_from H' s' l').
Proof.
  intros F. induction F as [|r r' l l' R F IH]; intros s s' S N; cbn [remove_dups_from]; [constructor|].
  assert (NR : NoDup (cond_strs r)) by (apply N; apply in_or_app; right; left; reflexivity).
  assert (E : in_set H s r = in_set H' s' r').
  { unfold in_set. assert (NS : forall q, In q s -> NoDup (cond_strs q)) by (intros; apply N; apply in_or_app; auto). clear -S R NR NS RN.
    induction S as [|q q' s s' Q S IH]; [reflexivity|]. cbn [existsb]. rewrite IH by (intros; apply NS; right; auto). f_equal.
    rewrite (rule_eqb_rel RC (rc_str _ _ _ _ _ _ _ _ RN) _ _ _ _ Q R). destruct (rule_eqb q' r') eqn:E; [|rewrite !Bool.andb_false_r; reflexivity]. rewrite !Bool.andb_true_r.
    assert (E0 : rule_eqb q r = true) by (rewrite (rule_eqb_rel RC (rc_str _ _ _ _ _ _ _ _ RN) _ _ _ _ Q R); auto).
    rewrite (hash_of_equal H _ _ E0), (hash_of_equal H' _ _ E), !Z.eqb_refl; auto.
    - apply (nodup_strs_rel _ _ (proj1 Q)). apply NS. left; auto.
    - apply (nodup_strs_rel _ _ (proj1 R)). auto.
    - apply NS. left; auto. }
  rewrite E. destruct (in_set H' s' r').
  - apply IH; auto. intros q I. apply N. apply in_app_or in I. apply in_or_app. destruct I; [auto|right; right; auto].
  - constructor; [auto|]. apply IH; [apply F2_app; auto|]. intros q I. apply N. rewrite <- app_assoc in I. exact I.
Qed.
Lemma trim_rel m l l' : Forall2 RR l l' -> Forall2 RR (trim_conds m l) (trim_conds m l').
Proof.
  intros F. unfold trim_conds. destruct m as [m|]; [|auto]. apply Forall2_rev. apply Forall2_rev in F. induction F as [|r r' l0 l0' R F IH]; cbn [trim_rev]; [constructor|].
  rewrite (count_rel RC _ _ (Forall2_cons _ _ R F)). destruct (_ <? _)%Z; auto.
Qed.
Lemma dedupe_rel e e' h x y : Forall2 RR (rs_rules x) (rs_rules y) -> (forall r, In r (rs_rules x) -> NoDup (cond_strs r)) ->
  Forall2 RR (rs_rules (dedupe_trim e h x)) (rs_rules (dedupe_trim e' h y)).
Proof. intros F N. unfold dedupe_trim, set_rules, remove_duplicates. cbn [rs_rules]. apply trim_rel. apply dups_rel; auto. Qed.
Lemma finish_rn w w' alg h x y : Forall2 RR (rs_rules x) (rs_rules y) -> (forall r, In r (rs_rules x) -> NoDup (cond_strs r)) ->
  rres rres_same (finish w alg h a f p x) (finish w' alg h b f' p' y).
Proof.
  intros F N. unfold finish. destruct alg.
  - pose proof (recal_rn (h_alpha h) x y F) as K. destruct (recalibrate (h_alpha h) x a f p) as [x2|] eqn:E1, (recalibrate (h_alpha h) y b f' p') as [y2|] eqn:E2; cbn [rres] in K; try contradiction; cbn [bind]; [|exact K].
    destruct K as [K U]. split; [|exact U]. apply dedupe_rel; auto. intros r I.
    unfold recalibrate in E1. binv E1. binv E1. binv E1. binv E1. binv E1. injection E1 as <-. cbn [rs_rules] in I.
    destruct (mapM_In _ _ _ _ E0 I) as (q & Iq & Eq). unfold rule_class_stats in Eq. binv Eq. binv Eq. binv Eq. injection Eq as <-. apply (N q Iq).
  - apply recal_rn. apply dedupe_rel; auto.
Qed.
End REC.

(** ** binning *)
Definition eqc (n : nat) (xa xb : frame) (j : nat) : Prop := forall i, i < n -> val xa i j = val xb i j.
Lemma nth_error_ext {A} (l k : list A) : (forall i, nth_error l i = nth_error k i) -> l = k.
Proof. revert k. induction l as [|x l IH]; intros [|y k] H; [reflexivity|specialize (H 0); discriminate|specialize (H 0); discriminate|]. assert (H0 := H 0). cbn in H0. injection H0 as ->. f_equal. apply IH. intros i. apply (H (S i)). Qed.
Lemma column_vals q g0 x j g : good_frame q -> drop_col q g0 = Ok x -> plain_names (fcols x) -> nth_error (fcols x) j = Some g ->
  column q g = map (fun i => val x i j) (seq 0 (length (frows q))).
Proof.
  intros G D N C. apply nth_error_ext. intros i.
  assert (HQ : has_col q g = true).
  { destruct (drop_col_values _ _ _ G D) as [P _]. apply has_col_iff. apply P. exists g. split; [eapply nth_error_In; eauto|]. apply (name_refl (fcols x)); auto. eapply nth_error_In; eauto. }
  rewrite column_nth by auto. rewrite nth_error_map.
  destruct (nth_error (frows q) i) as [r|] eqn:R.
  - destruct (cell_full _ _ _ _ _ _ _ G D N R C) as (_ & _ & CE). unfold cell_or. cbn [option_map]. rewrite CE.
    assert (L : i < length (frows q)) by (apply nth_error_Some; congruence). rewrite (nth_error_nth' _ 0) by (rewrite seq_length; auto). rewrite seq_nth by auto. reflexivity.
  - cbn [option_map]. apply nth_error_None in R. assert (E : nth_error (seq 0 (length (frows q))) i = None) by (apply nth_error_None; rewrite seq_length; auto). rewrite E. reflexivity.
Qed.
Lemma pos_of x j g : good_frame x -> plain_names (fcols x) -> nth_error (fcols x) j = Some g -> col_pos (fcols x) g = Some j.
Proof.
  intros [_ D] N C. assert (Q : py_eq g g = true) by (apply (name_refl (fcols x)); auto; eapply nth_error_In; eauto).
  assert (H : has_col x g = true) by (apply has_col_iff; exists g; split; auto; eapply nth_error_In; eauto).
  destruct (col_pos_has _ _ H) as (k & K & _). rewrite K. f_equal. destruct (col_pos_spec _ _ _ K) as (c & K1 & K2). apply (D k j c g); auto.
Qed.
Lemma val_set x j g vs i k : good_frame x -> plain_names (fcols x) -> nth_error (fcols x) j = Some g -> length vs = length (frows x) ->
  i < length (frows x) -> k < length (fcols x) -> val (set_col x g vs) i k = if k =? j then nth i vs PNaN else val x i k.
Proof.
  intros G N C L I K. unfold set_col. rewrite (pos_of _ _ _ G N C). unfold val. cbn [with_rows frows].
  destruct (nth_error (frows x) i) as [r|] eqn:R; [|apply nth_error_None in R; lia].
  assert (V : nth_error vs i = Some (nth i vs PNaN)) by (apply nth_error_nth'; lia).
  assert (E : nth i (map (fun p : row * pyval => mkrow (rlab (fst p)) (set_nth j (snd p) (rcells (fst p)))) (combine (frows x) vs)) (mkrow 0 []) = mkrow (rlab r) (set_nth j (nth i vs PNaN) (rcells r))).
  { apply nth_error_nth. rewrite nth_error_map, (combine_nth_error _ _ _ _ _ R V). reflexivity. }
  rewrite E, (nth_error_nth _ _ (mkrow 0 []) R). cbn [rcells].
  assert (LR : length (rcells r) = length (fcols x)) by (apply G; eapply nth_error_In; eauto). assert (J : j < length (rcells r)) by (rewrite LR; apply nth_error_Some; congruence).
  destruct (Nat.eqb_spec k j) as [->|NE].
  - apply nth_error_nth. rewrite set_nth_nth, Nat.eqb_refl; auto. apply Nat.ltb_lt in J. rewrite ?J. reflexivity.
  - erewrite nth_error_nth; [reflexivity|]. rewrite set_nth_nth. destruct (Nat.eqb_spec k j); [contradiction|]. apply nth_error_nth'. lia.
Qed.
Lemma map_val_eq n xa xb j : eqc n xa xb j -> map (fun i => val xa i j) (seq 0 n) = map (fun i => val xb i j) (seq 0 n).
Proof. intros E. apply map_ext_in. intros i I. apply in_seq in I. apply E. lia. Qed.
Section SET.
Variables (f f' p p' : pyval).
Lemma rf_notf a b xa xb g g' : ren f f' p p' a b xa xb -> rf xa xb g g' -> py_eq f g = false /\ py_eq f' g' = false.
Proof.
  intros RN (j & A & B). destruct (drop_col_values _ _ _ (rn_a _ _ _ _ _ _ _ _ RN) (rn_xa _ _ _ _ _ _ _ _ RN)) as [Pa _]. destruct (drop_col_values _ _ _ (rn_b _ _ _ _ _ _ _ _ RN) (rn_xb _ _ _ _ _ _ _ _ RN)) as [Pb _].
  split.
  - apply Pa. exists g. split; [eapply nth_error_In; eauto|]. apply (name_refl (fcols xa)); [apply (rn_na _ _ _ _ _ _ _ _ RN)|eapply nth_error_In; eauto].
  - apply Pb. exists g'. split; [eapply nth_error_In; eauto|]. apply (name_refl (fcols xb)); [apply (rn_nb _ _ _ _ _ _ _ _ RN)|eapply nth_error_In; eauto].
Qed.
Lemma set_rn a b xa xb j g g' vs : ren f f' p p' a b xa xb -> nth_error (fcols xa) j = Some g -> nth_error (fcols xb) j = Some g' -> length vs = length (frows a) ->
  ren f f' p p' (set_col a g vs) (set_col b g' vs) (set_col xa g vs) (set_col xb g' vs) /\
  fcols (set_col xa g vs) = fcols xa /\ fcols (set_col xb g' vs) = fcols xb /\ length (frows (set_col a g vs)) = length (frows a) /\
  labels (frows (set_col a g vs)) = labels (frows a) /\ labels (frows (set_col b g' vs)) = labels (frows b) /\
  (forall k, k < length (fcols xa) -> k = j \/ eqc (length (frows a)) xa xb k -> eqc (length (frows a)) (set_col xa g vs) (set_col xb g' vs) k) /\
  (forall i k, i < length (frows a) -> k < length (fcols xa) -> k <> j -> val (set_col xa g vs) i k = val xa i k /\ val (set_col xb g' vs) i k = val xb i k).
Proof.
  intros RN A B L. destruct (rf_notf _ _ _ _ _ _ RN (ex_intro _ j (conj A B))) as [NF NF']. destruct (rf_has _ _ _ _ _ _ _ _ RN _ _ (ex_intro _ j (conj A B))) as [HA HB].
  destruct (xlen _ _ _ _ _ _ _ _ RN) as [LA LB]. destruct (xgood _ _ _ _ _ _ _ _ RN) as [GA GB]. pose proof (rn_len _ _ _ _ _ _ _ _ RN) as LEN.
  assert (NA := rn_na _ _ _ _ _ _ _ _ RN). assert (NB := rn_nb _ _ _ _ _ _ _ _ RN). pose proof (rn_cols _ _ _ _ _ _ _ _ RN) as LC.
  assert (HXA : has_col xa g = true) by (apply has_col_iff; exists g; split; [eapply nth_error_In; eauto|apply (name_refl (fcols xa)); auto; eapply nth_error_In; eauto]).
  assert (HXB : has_col xb g' = true) by (apply has_col_iff; exists g'; split; [eapply nth_error_In; eauto|apply (name_refl (fcols xb)); auto; eapply nth_error_In; eauto]).
  destruct (rn_a _ _ _ _ _ _ _ _ RN) as [Wa Da]. destruct (rn_b _ _ _ _ _ _ _ _ RN) as [Wb Db].
  destruct (set_col_spec a g vs Wa HA L) as (A1 & A2 & A3 & _ & A5). destruct (set_col_spec b g' vs Wb HB ltac:(congruence)) as (B1 & B2 & B3 & _ & B5).
  destruct (set_col_spec xa g vs (proj1 GA) HXA ltac:(congruence)) as (XA1 & _). destruct (set_col_spec xb g' vs (proj1 GB) HXB ltac:(congruence)) as (XB1 & _).
  assert (VA : forall i k, i < length (frows a) -> k < length (fcols xa) -> val (set_col xa g vs) i k = if k =? j then nth i vs PNaN else val xa i k) by (intros; apply val_set; auto; congruence).
  assert (VB : forall i k, i < length (frows a) -> k < length (fcols xa) -> val (set_col xb g' vs) i k = if k =? j then nth i vs PNaN else val xb i k) by (intros; apply val_set; auto; congruence).
  assert (LSA : length (frows (set_col a g vs)) = length (frows a)) by (apply (f_equal (@length nat)) in A2; unfold labels in A2; rewrite !map_length in A2; auto).
  assert (LSB : length (frows (set_col b g' vs)) = length (frows b)) by (apply (f_equal (@length nat)) in B2; unfold labels in B2; rewrite !map_length in B2; auto).
  split; [|split; [auto|split; [auto|split; [auto|split; [auto|split; [auto|] ] ] ] ] ].
  - constructor.
    + split; auto. rewrite A1; auto.
    + split; auto. rewrite B1; auto.
    + rewrite drop_set by auto. rewrite (rn_xa _ _ _ _ _ _ _ _ RN). reflexivity.
    + rewrite drop_set by auto. rewrite (rn_xb _ _ _ _ _ _ _ _ RN). reflexivity.
    + congruence.
    + congruence.
    + rewrite A2. apply (rn_la _ _ _ _ _ _ _ _ RN).
    + rewrite B2. apply (rn_lb _ _ _ _ _ _ _ _ RN).
    + rewrite A5, B5; [apply (rn_pos _ _ _ _ _ _ _ _ RN)|rewrite py_eq_sym; auto|rewrite py_eq_sym; auto].
    + rewrite XA1. auto.
    + rewrite XB1. auto.
    + intros i k m. rewrite LSA, XA1. intros I K M. rewrite !VA, !VB by auto. destruct (m =? j); [reflexivity|]. apply (rn_pat _ _ _ _ _ _ _ _ RN); auto.
    + intros i k m. rewrite LSA, XA1. intros I K M. rewrite !VA, !VB by auto. destruct (m =? j); [reflexivity|]. apply (rn_str _ _ _ _ _ _ _ _ RN); auto.
  - split.
    + intros k K [->|E] i I; rewrite VA, VB by auto; [rewrite Nat.eqb_refl; reflexivity|]. destruct (k =? j); auto.
    + intros i k I K NE. rewrite VA, VB by auto. destruct (Nat.eqb_spec k j); [contradiction|auto].
Qed.

(** bins of corresponding features, whose columns are the same *)
Definition rbin (n : nat) (xa xb : frame) (q q' : pyval * list str) : Prop :=
  exists j, nth_error (fcols xa) j = Some (fst q) /\ nth_error (fcols xb) j = Some (fst q') /\ snd q = snd q' /\ eqc n xa xb j.
Definition kept_cells n xa xb ya yb (bins : list (pyval * list str)) : Prop :=
  forall i k, i < n -> k < length (fcols xa) -> (forall q, In q bins -> nth_error (fcols xa) k <> Some (fst q)) -> val ya i k = val xa i k /\ val yb i k = val xb i k.
Definition rtab (a b xa xb : frame) (bins : list (pyval * list str)) (c d : frame) : Prop := exists ya yb, ren f f' p p' c d ya yb /\ fcols ya = fcols xa /\ fcols yb = fcols xb /\
  length (frows c) = length (frows a) /\ labels (frows c) = labels (frows a) /\ labels (frows d) = labels (frows b) /\
  (forall k, k < length (fcols xa) -> eqc (length (frows a)) xa xb k -> eqc (length (frows a)) ya yb k) /\ kept_cells (length (frows a)) xa xb ya yb bins.
Lemma tcols_rn bt bt' done done' : bt_thresholds bt = [] -> bt_thresholds bt' = [] -> forall bins bins' a b xa xb, ren f f' p p' a b xa xb -> Forall2 (rf xa xb) done done' -> Forall2 (rbin (length (frows a)) xa xb) bins bins' ->
  rres (rtab a b xa xb bins) (transform_cols bt done bins a) (transform_cols bt' done' bins' b).
Proof.
  intros TH TH' bins bins' a b xa xb RN FD F. revert a b xa xb RN FD F. revert bins'. induction bins as [|[g bs] t IH]; intros bins' a b xa xb RN FD F; inversion F as [|? [g' bs'] ? t' RB FT]; subst; cbn [transform_cols].
  { exists xa, xb. split; [auto|]. do 6 (split; [auto|]). intros i k _ _ _. auto. }
  destruct RB as (j & A & B & EB & EQ). cbn [fst snd] in A, B, EB. subst bs'.
  assert (RF : rf xa xb g g') by (exists j; auto). destruct (rf_has _ _ _ _ _ _ _ _ RN _ _ RF) as [HA HB]. rewrite HA, HB. cbn [andb].
  rewrite (F2_existsb (rf xa xb) (fun h => py_eq h g) (fun h => py_eq h g') done done') by (auto; intros; apply (rf_eq _ _ _ _ _ _ _ _ RN); auto).
  assert (J : j < length (fcols xa)) by (eapply nth_lt; eauto).
  destruct (negb (existsb (fun h => py_eq h g') done')).
  - rewrite (column_vals _ _ _ _ _ (rn_a _ _ _ _ _ _ _ _ RN) (rn_xa _ _ _ _ _ _ _ _ RN) (rn_na _ _ _ _ _ _ _ _ RN) A), (column_vals _ _ _ _ _ (rn_b _ _ _ _ _ _ _ _ RN) (rn_xb _ _ _ _ _ _ _ _ RN) (rn_nb _ _ _ _ _ _ _ _ RN) B).
    rewrite <- (rn_len _ _ _ _ _ _ _ _ RN), <- (map_val_eq _ _ _ _ EQ). set (cv := map _ _).
    assert (ET : transform_feat bt g bs cv = transform_feat bt' g' bs cv) by (unfold transform_feat; rewrite TH, TH'; reflexivity). rewrite <- ET.
    destruct (transform_feat bt g bs cv) as [vs|] eqn:T; cbn [bind]; [|reflexivity]. destruct (transform_feat_ok _ _ _ _ _ T) as [L _]. unfold cv in L. rewrite map_length, seq_length in L.
    destruct (set_rn _ _ _ _ _ _ _ vs RN A B L) as (RN' & XA & XB & LL & LA & LB & EE & KK).
    assert (FT' : Forall2 (rbin (length (frows (set_col a g vs))) (set_col xa g vs) (set_col xb g' vs)) t t').
    { eapply F2_imp; [|exact FT]. intros q q' (k & K1 & K2 & K3 & K4). exists k. rewrite XA, XB, LL. do 3 (split; [auto|]). apply EE; [eapply nth_lt; eauto|auto]. }
    assert (FD' : Forall2 (rf (set_col xa g vs) (set_col xb g' vs)) done done') by (eapply F2_imp; [|exact FD]; intros q q' (k & K1 & K2); exists k; rewrite XA, XB; auto).
    eapply rres_imp; [apply (IH _ _ _ _ _ RN' FD' FT')|]. intros c d (ya & yb & R1 & R2 & R3 & R4 & R5 & R6 & R7 & R8). exists ya, yb. rewrite XA, XB, LL in *.
    split; [auto|]. split; [auto|]. split; [auto|]. split; [congruence|]. split; [congruence|]. split; [congruence|]. split; [intros k K1 K2; apply R7; auto|].
    intros i k I K NI. destruct (R8 i k I ltac:(rewrite XA; auto)) as [E1 E2]; [intros q Iq; rewrite XA; apply NI; right; auto|].
    destruct (KK i k I K) as [E3 E4]; [intros ->; apply (NI (g, bs)); [left; auto|exact A]|]. split; congruence.
  - eapply rres_imp; [apply (IH _ _ _ _ _ RN FD FT)|]. intros c d (ya & yb & R1 & R2 & R3 & R4 & R5 & R6 & R7 & R8). exists ya, yb. do 7 (split; [auto|]).
    intros i k I K NI. apply R8; auto. intros q Iq. apply NI. right; auto.
Qed.
Lemma F2_map_fst n xa xb l l' : Forall2 (rbin n xa xb) l l' -> Forall2 (rf xa xb) (map fst l) (map fst l').
Proof. intros F. eapply F2_map; [|exact F]. intros q q' (j & A & B & _). exists j. auto. Qed.
Lemma transform_rn bt bt' bins bins' a b xa xb : bt_bins bt = Some bins -> bt_bins bt' = Some bins' -> bt_thresholds bt = [] -> bt_thresholds bt' = [] -> ren f f' p p' a b xa xb -> Forall2 (rbin (length (frows a)) xa xb) bins bins' ->
  rres (rtab a b xa xb bins) (transform bt a) (transform bt' b).
Proof.
  intros HB HB' TH TH' RN F. unfold transform. rewrite HB, HB'.
  assert (K : forall q q', rbin (length (frows a)) xa xb q q' -> column a (fst q) = column b (fst q') /\ has_col a (fst q) = true /\ has_col b (fst q') = true).
  { intros q q' (j & A & B & _ & EQ). destruct (rf_has _ _ _ _ _ _ _ _ RN _ _ (ex_intro _ j (conj A B))) as [H1 H2]. split; [|auto].
    rewrite (column_vals _ _ _ _ _ (rn_a _ _ _ _ _ _ _ _ RN) (rn_xa _ _ _ _ _ _ _ _ RN) (rn_na _ _ _ _ _ _ _ _ RN) A), (column_vals _ _ _ _ _ (rn_b _ _ _ _ _ _ _ _ RN) (rn_xb _ _ _ _ _ _ _ _ RN) (rn_nb _ _ _ _ _ _ _ _ RN) B).
    rewrite <- (rn_len _ _ _ _ _ _ _ _ RN). apply map_val_eq; auto. }
  assert (FF : Forall2 (rbin (length (frows a)) xa xb) (filter (fun q => has_col a (fst q) && is_text_col (column a (fst q))) bins) (filter (fun q => has_col b (fst q) && is_text_col (column b (fst q))) bins')).
  { apply Forall2_filter; auto. intros q q' Q. destruct (K _ _ Q) as (-> & -> & ->). reflexivity. }
  eapply rres_bind with (R := Forall2 (rf xa xb)).
  - unfold find_transformed.
    rewrite (F2_forallb _ (fun q : pyval * list str => forallb (fun v => match v with PStr s => str_in s (snd q) | _ => false end) (column a (fst q)))
      (fun q : pyval * list str => forallb (fun v => match v with PStr s => str_in s (snd q) | _ => false end) (column b (fst q))) _ _) with (2 := FF).
    + destruct (forallb _ _); [|reflexivity]. eapply F2_map_fst. exact FF.
    + intros q q' Q. destruct (K _ _ Q) as (-> & _). destruct Q as (j & _ & _ & -> & _). reflexivity.
  - intros d d' FD. apply tcols_rn; auto.
Qed.
(** which features are binned *)
Lemma feats_rn nbins a b xa xb : ren f f' p p' a b xa xb ->
  (forall j, j < length (fcols xa) -> eqc (length (frows a)) xa xb j \/ (is_numeric_col (map (fun i => val xa i j) (seq 0 (length (frows a)))) = false /\ is_numeric_col (map (fun i => val xb i j) (seq 0 (length (frows a)))) = false)) ->
  Forall2 (fun g g' => exists j, nth_error (fcols xa) j = Some g /\ nth_error (fcols xb) j = Some g' /\ eqc (length (frows a)) xa xb j) (find_continuous_feats nbins a [f]) (find_continuous_feats nbins b [f']).
Proof.
  intros RN NUM. unfold find_continuous_feats. destruct nbins as [n|]; [|constructor]. destruct (n =? 0)%Z; [constructor|].
  assert (DA := rn_xa _ _ _ _ _ _ _ _ RN). assert (DB := rn_xb _ _ _ _ _ _ _ _ RN). unfold drop_col in DA, DB.
  destruct (col_pos (fcols a) f) as [ja|] eqn:JA; [|discriminate]. destruct (col_pos (fcols b) f') as [jb|] eqn:JB; [|discriminate]. apply ok_inj in DA, DB.
  destruct (col_pos_spec _ _ _ JA) as (c & A1 & A2). destruct (col_pos_spec _ _ _ JB) as (d & B1 & B2).
  rewrite <- (filter_remove _ (fcols a) ja c A1) by (cbn [existsb]; rewrite (py_eq_sym f c), A2; cbn [orb negb]; apply Bool.andb_false_r).
  rewrite <- (filter_remove _ (fcols b) jb d B1) by (cbn [existsb]; rewrite (py_eq_sym f' d), B2; cbn [orb negb]; apply Bool.andb_false_r).
  replace (remove_nth ja (fcols a)) with (fcols xa) by (rewrite <- DA; reflexivity). replace (remove_nth jb (fcols b)) with (fcols xb) by (rewrite <- DB; reflexivity).
  assert (PW : forall g g', rf xa xb g g' -> (exists j, nth_error (fcols xa) j = Some g /\ nth_error (fcols xb) j = Some g' /\ eqc (length (frows a)) xa xb j /\ column a g = column b g') \/ (is_numeric_col (column a g) = false /\ is_numeric_col (column b g') = false)).
  { intros g g' (j & A & B). rewrite (column_vals _ _ _ _ _ (rn_a _ _ _ _ _ _ _ _ RN) (rn_xa _ _ _ _ _ _ _ _ RN) (rn_na _ _ _ _ _ _ _ _ RN) A), (column_vals _ _ _ _ _ (rn_b _ _ _ _ _ _ _ _ RN) (rn_xb _ _ _ _ _ _ _ _ RN) (rn_nb _ _ _ _ _ _ _ _ RN) B).
    rewrite <- (rn_len _ _ _ _ _ _ _ _ RN). destruct (NUM j) as [E|E]; [eapply nth_lt; eauto| |right; exact E]. left. exists j. split; [auto|]. split; [auto|]. split; [auto|]. apply map_val_eq; auto. }
  pose proof (rf_all _ _ _ _ _ _ _ _ RN) as F.
  assert (G : forall l l', Forall2 (rf xa xb) l l' -> Forall2 (fun g g' => exists j, nth_error (fcols xa) j = Some g /\ nth_error (fcols xb) j = Some g' /\ eqc (length (frows a)) xa xb j)
    (filter (fun g => is_numeric_col (column a g) && (n <? Z.of_nat (length (unique (column a g))))%Z && negb (existsb (fun g0 => py_eq g0 g) [f])) l)
    (filter (fun g => is_numeric_col (column b g) && (n <? Z.of_nat (length (unique (column b g))))%Z && negb (existsb (fun g0 => py_eq g0 g) [f'])) l')).
  { intros l l' FL. induction FL as [|g g' l l' G FL IH]; [constructor|]. cbn [filter]. destruct (rf_notf _ _ _ _ _ _ RN G) as [N1 N2]. cbn [existsb]. rewrite N1, N2. cbn [orb negb].
    destruct (PW g g' G) as [(j & A & B & E & ->)|[-> ->] ]; [|cbn [andb]; exact IH].
    destruct (is_numeric_col (column b g') && (n <? Z.of_nat (length (unique (column b g'))))%Z && true); [|exact IH]. constructor; [exists j; auto|exact IH]. }
  apply G. exact F.
Qed.
Definition rfit a b xa xb (u v : bin_transformer * frame) : Prop :=
  exists bins bins', bt_bins (fst u) = Some bins /\ bt_bins (fst v) = Some bins' /\ bt_thresholds (fst u) = [] /\ bt_thresholds (fst v) = [] /\
    Forall2 (rbin (length (frows a)) xa xb) bins bins' /\ rtab a b xa xb bins (snd u) (snd v).
Lemma fit_transform_rn cut cut' nbins a b xa xb : (forall n l, cut n l = cut' n l) -> ren f f' p p' a b xa xb ->
  (forall j, j < length (fcols xa) -> eqc (length (frows a)) xa xb j \/ (is_numeric_col (map (fun i => val xa i j) (seq 0 (length (frows a)))) = false /\ is_numeric_col (map (fun i => val xb i j) (seq 0 (length (frows a)))) = false)) ->
  rres (rfit a b xa xb) (fit_transform cut nbins a [f]) (fit_transform cut' nbins b [f']).
Proof.
  intros CE RN NUM. unfold fit_transform, fit_bins. pose proof (feats_rn nbins _ _ _ _ RN NUM) as FF.
  assert (M : rres (Forall2 (rbin (length (frows a)) xa xb))
    (mapM (fun f0 => _ <- (if (match nbins with Some n => n | None => 0 end <? -1)%Z then Err ValueError else if (match nbins with Some n => n | None => 0 end <? 0)%Z then Err IndexError else Ok tt) ;; b0 <- fit_labels (pandas_bins (cut match nbins with Some n => n | None => 0%Z end (column a f0)) (column a f0)) ;; Ok (f0, b0)) (find_continuous_feats nbins a [f]))
    (mapM (fun f0 => _ <- (if (match nbins with Some n => n | None => 0 end <? -1)%Z then Err ValueError else if (match nbins with Some n => n | None => 0 end <? 0)%Z then Err IndexError else Ok tt) ;; b0 <- fit_labels (pandas_bins (cut' match nbins with Some n => n | None => 0%Z end (column b f0)) (column b f0)) ;; Ok (f0, b0)) (find_continuous_feats nbins b [f']))).
  { eapply mapM_rel; [|exact FF]. intros g g' (j & A & B & E). eapply rres_bind; [apply rres_refl|]. intros ? ? _.
    rewrite (column_vals _ _ _ _ _ (rn_a _ _ _ _ _ _ _ _ RN) (rn_xa _ _ _ _ _ _ _ _ RN) (rn_na _ _ _ _ _ _ _ _ RN) A), (column_vals _ _ _ _ _ (rn_b _ _ _ _ _ _ _ _ RN) (rn_xb _ _ _ _ _ _ _ _ RN) (rn_nb _ _ _ _ _ _ _ _ RN) B).
    rewrite <- (rn_len _ _ _ _ _ _ _ _ RN), <- (map_val_eq _ _ _ _ E), CE. eapply rres_bind; [apply rres_refl|]. intros bs ? <-. exists j. auto. }
  eapply rres_bind with (R := fun u v => exists bins bins', bt_bins u = Some bins /\ bt_bins v = Some bins' /\ bt_thresholds u = [] /\ bt_thresholds v = [] /\ Forall2 (rbin (length (frows a)) xa xb) bins bins').
  - eapply rres_bind; [exact M|]. intros u v K. do 2 eexists. cbn [bt_bins bt_thresholds]. do 4 (split; [reflexivity|]). apply Forall2_filter; auto. intros q q' (j & _ & _ & -> & _). reflexivity.
  - intros u v (bins & bins' & H1 & H2 & H3 & H4 & H5). eapply rres_bind; [apply (transform_rn u v bins bins' a b xa xb); auto|]. intros c d K. exists bins, bins'. auto 10.
Qed.
End SET.
(** the rules learned have no two conditions with the same text *)
Lemma strs_apart cols r : plain_names cols -> distinct_cols cols -> (forall c, In c (conds r) -> In (cfeat c) cols) ->
  (forall a c b d t, conds r = a ++ c :: b ++ d :: t -> py_eq (cfeat c) (cfeat d) = false) -> NoDup (cond_strs r).
Proof.
  intros N D I S. unfold cond_strs. induction (conds r) as [|c l IH]; cbn [map]; constructor.
  - intros J. apply in_map_iff in J. destruct J as (d & E & J). assert (K := J). apply in_split in J. destruct J as (b & t & ->). specialize (S [] c b d t eq_refl).
    destruct (In_nth_error _ _ (I c (or_introl eq_refl))) as (i & Hi). destruct (In_nth_error _ _ (I d (or_intror K))) as (j & Hj).
    assert (Q := cond_str_eqb cols d c j i N Hj Hi). rewrite E, str_eqb_refl in Q. symmetry in Q. apply andb_prop in Q. destruct Q as [Q _].
    rewrite (names_eqb _ _ _ _ _ D N Hi Hj) in S. rewrite Nat.eqb_sym in S. congruence.
  - apply IH; [intros; apply I; right; auto|]. intros a c0 b d t ->. apply (S (c :: a) c0 b d t). reflexivity.
Qed.
