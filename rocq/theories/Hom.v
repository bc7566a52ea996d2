(** * Hom.v : the generic learner only sees coverage: changing the representation of examples or dropping useless candidates
    changes nothing. Both engines become the learner over row labels with coverage [xsat]. *)
From Verif Require Export IrepFacts LearnSpec.
From Coq Require Import Lqa.
Open Scope nat_scope.

Lemma filter_map_comm {A B} (f : A -> B) (p : B -> bool) l : filter p (map f l) = map f (filter (fun a => p (f a)) l).
Proof. induction l as [|a l IH]; [reflexivity|]. cbn [map filter]. rewrite IH. destruct (p (f a)); reflexivity. Qed.

Section Hom.
Context {E E' : Type} (f : E -> E') (cs : cond -> E -> bool) (cs' : cond -> E' -> bool) (P : E -> Prop).
Context (HP : forall c i, P i -> cs' c (f i) = cs c i).
Notation within l := (forall i, In i l -> P i).

Lemma gsat_hom r i : P i -> gsat cs' r (f i) = gsat cs r i.
Proof. intros H. unfold gsat. induction (conds r) as [|c t IH]; [reflexivity|]. cbn [forallb]. rewrite IH, HP by auto. reflexivity. Qed.
Lemma gcov_hom r l : within l -> gcov cs' r (map f l) = map f (gcov cs r l).
Proof. intros H. unfold gcov. rewrite filter_map_comm. f_equal. apply filter_ext_in. intros i I. apply gsat_hom; auto. Qed.
Lemma gcov_hom_len r l : within l -> length (gcov cs' r (map f l)) = length (gcov cs r l).
Proof. intros H. rewrite gcov_hom, map_length by auto. reflexivity. Qed.
Lemma gdrop_hom r l : within l -> gdrop cs' r (map f l) = map f (gdrop cs r l).
Proof. intros H. unfold gdrop. rewrite filter_map_comm. f_equal. apply filter_ext_in. intros i I. rewrite gsat_hom; auto. Qed.
Lemma gsucc_hom cands r pos neg : within pos -> within neg ->
  gsucc cs' cands r (map f pos) (map f neg) = gsucc cs cands r pos neg.
Proof.
  intros H1 H2. unfold gsucc.
  assert (K : forall l q o, best_succ_scan (fun s => ggain cs' r s (map f pos) (map f neg)) q o l = best_succ_scan (fun s => ggain cs r s pos neg) q o l).
  { induction l as [|s l IH]; intros q o; [reflexivity|]. cbn [best_succ_scan].
    unfold ggain at 1 3. rewrite !gcov_hom_len by auto. fold (ggain cs r s pos neg). rewrite !IH. reflexivity. }
  apply K.
Qed.
Lemma ggrow_hom fuel cands pos neg mc ms : within pos -> within neg -> forall r,
  ggrow cs' fuel cands (map f pos) (map f neg) mc ms r = ggrow cs fuel cands pos neg mc ms r.
Proof.
  intros H1 H2. induction fuel as [|k IH]; intros r; [reflexivity|]. cbn [ggrow]. rewrite !gcov_hom_len, gsucc_hom by auto.
  destruct (_ =? 0); auto. destruct (user_halt _ _ _ _ _); auto. destruct (gsucc _ _ _ _ _); auto.
Qed.
Context (D : list E -> Prop) (sp : nat -> list E -> list E * list E) (sp' : nat -> list E' -> list E' * list E') (h : hyper).
Context (DP : forall l, D l -> within l) (OK : sp_ok D sp h)
        (SP : forall t l a b, D l -> sp t l = (a, b) -> sp' t (map f l) = (map f a, map f b)).
Lemma girep_hom cands fuel : forall t rs pos neg, D pos -> D neg ->
  girep cs' cands sp' h fuel t rs (map f pos) (map f neg) = girep cs cands sp h fuel t rs pos neg.
Proof.
  induction fuel as [|k IH]; intros t rs pos neg Dp Dn; [reflexivity|]. cbn [girep]. rewrite !map_length.
  destruct (_ =? 0); auto. destruct (stop_early _ _ _ _ _ _ _); auto.
  destruct (sp t pos) as [pg pp] eqn:S1. destruct (sp (S t) neg) as [ng np] eqn:S2.
  rewrite (SP _ _ _ _ Dp S1), (SP _ _ _ _ Dn S2).
  assert (W : forall l a b t, D l -> sp t l = (a, b) -> within a /\ within b).
  { intros l a b t' Dl S. pose proof (sp_perm _ _ _ OK _ _ _ _ Dl S) as Q. split; intros i I; apply (DP _ Dl);
    eapply Permutation_in; try exact Q; apply in_or_app; auto. }
  destruct (W _ _ _ _ Dp S1) as [W1 W2]. destruct (W _ _ _ _ Dn S2) as [W3 W4].
  rewrite map_length, ggrow_hom by auto. destruct (ggrow cs _ _ _ _ _ _ _) as [g|]; cbn [bind]; auto.
  destruct (prune_off h).
  - rewrite gdrop_hom by (apply DP; auto). apply IH; auto. apply (D_filter _ _ _ OK); auto.
  - rewrite (prune_rule_ext _ (gmetric cs pp np)).
    2:{ intros s. unfold gmetric. rewrite !map_length, !gcov_hom_len by auto. reflexivity. }
    destruct (prune_rule _ g) as [[s|]|]; cbn [bind]; auto. unfold gprec. rewrite !gcov_hom_len by auto.
    destruct (bad_precision _); auto. rewrite !gdrop_hom by (apply DP; auto). apply IH; apply (D_filter _ _ _ OK); auto.
Qed.
End Hom.

(** candidates that cannot gain may be left out *)
Section Cands.
Context {E : Type} (cs : cond -> E -> bool).
Lemma scan_filter (g : rule -> Q) (keep : rule -> bool) l : (forall s, In s l -> keep s = false -> (g s <= 1)%Q) ->
  forall q o, (1 <= q)%Q -> best_succ_scan g q o (filter keep l) = best_succ_scan g q o l.
Proof.
  intros H. induction l as [|s l IH]; intros q o Hq; [reflexivity|]. cbn [filter best_succ_scan].
  assert (IH' : forall q o, (1 <= q)%Q -> best_succ_scan g q o (filter keep l) = best_succ_scan g q o l).
  { apply IH. intros; apply H; auto. right; auto. }
  destruct (keep s) eqn:K.
  - cbn [best_succ_scan]. destruct (Qlt_b q (g s)) eqn:L; auto. apply IH'. apply Qlt_b_iff in L. lra.
  - assert (Qlt_b q (g s) = false) as ->; auto. apply Qlt_b_false. specialize (H s (or_introl eq_refl) K). lra.
Qed.
Lemma gsucc_df_cands (compat : forall c d i, cond_eqb c d = true -> cs c i = cs d i) possible r pos neg :
  gsucc cs (df_cands possible) r pos neg = gsucc cs (fun _ => possible) r pos neg.
Proof.
  unfold gsucc, df_cands.
  set (keep := fun s : rule => match rev (conds s) with c :: _ => negb (existsb (fun d => cond_eqb d c) (conds r)) | [] => true end).
  assert (M : map (fun c => Rule_ (conds r ++ [c])) (filter (fun c => negb (existsb (fun d => cond_eqb d c) (conds r))) possible) =
              filter keep (map (fun c => Rule_ (conds r ++ [c])) possible)).
  { rewrite filter_map_comm. f_equal. apply filter_ext. intros c. unfold keep. cbn [conds Rule_]. rewrite rev_unit. reflexivity. }
  rewrite M. apply scan_filter; [|apply Qle_refl].
  intros s I K. apply in_map_iff in I. destruct I as (c & <- & Ic). unfold keep in K. cbn [conds Rule_] in K. rewrite rev_unit in K.
  apply Bool.negb_false_iff, existsb_exists in K. destruct K as (e & K1 & K2).
  unfold ggain. rewrite !(repeat_same cs compat (conds r) c e) by auto.
  rewrite !(gcov_conds cs (Rule_ (conds r)) r) by auto. apply gain2_same.
Qed.
Lemma ggrow_ext cands cands' fuel pos neg mc ms : (forall r, gsucc cs cands r pos neg = gsucc cs cands' r pos neg) ->
  forall r, ggrow cs fuel cands pos neg mc ms r = ggrow cs fuel cands' pos neg mc ms r.
Proof.
  intros H. induction fuel as [|k IH]; intros r; [reflexivity|]. cbn [ggrow]. rewrite H.
  destruct (_ =? 0); auto. destruct (user_halt _ _ _ _ _); auto. destruct (gsucc _ _ _ _ _); auto.
Qed.
Lemma girep_ext cands cands' sp h fuel : (forall r pos neg, gsucc cs cands r pos neg = gsucc cs cands' r pos neg) ->
  forall t rs pos neg, girep cs cands sp h fuel t rs pos neg = girep cs cands' sp h fuel t rs pos neg.
Proof.
  intros H. induction fuel as [|k IH]; intros t rs pos neg; [reflexivity|]. cbn [girep].
  destruct (_ =? 0); auto. destruct (stop_early _ _ _ _ _ _ _); auto.
  destruct (sp t pos) as [pg pp]. destruct (sp (S t) neg) as [ng np].
  rewrite (ggrow_ext cands cands') by auto. destruct (ggrow _ _ _ _ _ _ _ _) as [g|]; cbn [bind]; auto.
  destruct (prune_off h); auto. destruct (prune_rule _ g) as [[s|]|]; cbn [bind]; auto. destruct (bad_precision _); auto.
Qed.
End Cands.

(** ** Labels *)
Definition xsat (x : frame) (c : cond) (i : nat) : bool := lab_sat x [c] i.
Lemma xsat_row x c rw : NoDup (labels (frows x)) -> In rw (frows x) -> xsat x c (rlab rw) = rsat (fcols x) c rw.
Proof. intros N I. unfold xsat. rewrite lab_sat_row by auto. unfold conds_sat. cbn [forallb]. apply Bool.andb_true_r. Qed.
Lemma xsat_cn cn x c i : is_index cn x -> distinct_cols (fcols x) -> NoDup (labels (frows x)) -> In i (labels (frows x)) ->
  xsat x c i = lsat cn c i.
Proof. intros I Dc N H. unfold xsat. rewrite <- (maps_lab_sat cn x [c] i) by auto. cbn. apply Bool.andb_true_r. Qed.
Lemma xsat_compat x c d i : cond_eqb c d = true -> xsat x c i = xsat x d i.
Proof.
  unfold cond_eqb. intros H. apply andb_prop in H. destruct H as [H1 H2]. unfold xsat, lab_sat. apply existsb_ext_in. intros rw _.
  f_equal. unfold conds_sat. cbn [forallb]. rewrite (cell_eq_py_eq _ _ _ _ _ _ H1 H2). reflexivity.
Qed.
Definition in_frame (x : frame) (l : list nat) : Prop := incl l (labels (frows x)).
Lemma lab_sp_ok e h x : env_ok e -> (0 <= h_prune h)%Q -> (h_prune h <= 1)%Q ->
  sp_ok (in_frame x) (fun t l => random_split e t (grow_size h) l) h.
Proof.
  intros Eo P0 P1. pose proof (cn_sp_ok e h (mkcn [] [] (labels (frows x))) Eo P0 P1) as [A B C F]. constructor; auto.
Qed.
(** coverage by label is coverage of the row *)
Lemma gsat_covers x r i : distinct_cols (fcols x) -> NoDup (labels (frows x)) -> In i (labels (frows x)) ->
  (gsat (xsat x) r i = true <-> covers_label x r i).
Proof.
  intros Dc N I. apply in_map_iff in I. destruct I as (rw & <- & I).
  assert (gsat (xsat x) r (rlab rw) = conds_sat (fcols x) (conds r) rw) as ->.
  { unfold gsat, conds_sat. induction (conds r) as [|c t IH]; [reflexivity|]. cbn [forallb]. rewrite IH, xsat_row by auto. reflexivity. }
  rewrite conds_sat_iff by auto. split.
  - intros H. exists rw. auto.
  - intros (rw' & I' & L & H). assert (rw' = rw) as -> by (apply (NoDup_map_inj rlab (frows x)); auto). exact H.
Qed.

Definition lab_girep (e : env) (h : hyper) (x : frame) (cand : list cond) (fuel t : nat) (rs : list rule) (pos neg : list nat) :=
  girep (xsat x) (fun _ => cand) (fun t l => random_split e t (grow_size h) l) h fuel t rs pos neg.
Lemma irep_loop_cn_lab e h cn x fuel t rs pos neg : env_ok e -> (0 <= h_prune h)%Q -> (h_prune h <= 1)%Q ->
  is_index cn x -> distinct_cols (fcols x) -> NoDup (labels (frows x)) -> in_frame x pos -> in_frame x neg ->
  irep_loop_cn fuel e h cn t rs pos neg = lab_girep e h x (cn_conds cn) fuel t rs pos neg.
Proof.
  intros Eo P0 P1 I Dc N Hp Hn. assert (A : cn_all cn = labels (frows x)) by apply I.
  rewrite irep_loop_cn_g by (auto; rewrite A; auto).
  rewrite <- (map_id pos) at 2. rewrite <- (map_id neg) at 2. unfold lab_girep. symmetry.
  apply girep_hom with (P := fun i => In i (labels (frows x))) (D := in_frame x); auto.
  - intros c i H. apply xsat_cn; auto.
  - apply lab_sp_ok; auto.
  - intros t' l a b _ S. rewrite !map_id. exact S.
Qed.
Lemma irep_loop_lab e h x possible fuel t rs pos neg : env_ok e -> (0 <= h_prune h)%Q -> (h_prune h <= 1)%Q ->
  distinct_cols (fcols x) -> NoDup (labels (frows x)) ->
  incl pos (frows x) -> incl neg (frows x) -> NoDup (labels pos) -> NoDup (labels neg) ->
  irep_loop fuel e h (fcols x) possible t rs pos neg = lab_girep e h x possible fuel t rs (labels pos) (labels neg).
Proof.
  intros Eo P0 P1 Dc N Ip In_ Np Nn. rewrite irep_loop_g by auto.
  rewrite (girep_ext _ (df_cands possible) (fun _ => possible)).
  2:{ intros. apply gsucc_df_cands. apply rsat_compat. }
  unfold lab_girep, labels. symmetry.
  pose proof (df_sp_ok e h Eo P0 P1) as [A B C F].
  apply girep_hom with (P := fun rw => In rw (frows x)) (D := fun l => incl l (frows x) /\ row_labels_distinct l).
  - intros c i H. apply xsat_row; auto.
  - intros l [H _]. exact H.
  - constructor.
    + intros p l [H1 H2]. split; auto. intros i I. apply filter_In in I. apply H1; tauto.
    + intros t' l a b [_ H] S. eapply B; eauto.
    + intros t' l a b [_ H] S. eapply C; eauto.
    + intros t' l a b [_ H] S. eapply F; eauto.
  - intros t' l a b [_ H] S. unfold df_shuffled_split in S. fold (labels l).
    destruct (random_split e t' (grow_size h) (labels l)) as [i1 i2] eqn:R. injection S as <- <-.
    assert (G0 : (0 <= grow_size h)%Q) by (unfold grow_size; lra). assert (G1 : (grow_size h <= 1)%Q) by (unfold grow_size; lra).
    destruct (random_split_incl _ _ _ _ _ _ Eo G0 G1 R) as [J1 J2].
    fold (labels (loc l i1)). fold (labels (loc l i2)). rewrite !labels_loc by auto. reflexivity.
  - split; auto.
  - split; auto.
Qed.
