(** * RenSim.v : two trainings on the same data under different names run in step *)
From Verif Require Import Ripper BaseFacts CallForm FitRun.
Open Scope nat_scope.

(** the results correspond, or the same exception is raised *)
Definition rres {A B} (R : A -> B -> Prop) (x : res A) (y : res B) : Prop :=
  match x, y with Ok a, Ok b => R a b | Err e, Err e' => e = e' | _, _ => False end.
Lemma rres_bind {A B C D} (R : A -> B -> Prop) (S : C -> D -> Prop) x y (f : A -> res C) (g : B -> res D) :
  rres R x y -> (forall a b, R a b -> rres S (f a) (g b)) -> rres S (bind x f) (bind y g).
Proof. destruct x, y; cbn [rres bind]; intros H K; try contradiction; auto. Qed.
Lemma rres_imp {A B} (R S : A -> B -> Prop) x y : rres R x y -> (forall a b, R a b -> S a b) -> rres S x y.
Proof. destruct x, y; cbn [rres]; intros H K; try contradiction; auto. Qed.
Lemma rres_refl {A} (x : res A) : rres eq x x.
Proof. destruct x; reflexivity. Qed.
Lemma rres_eq {A} (x y : res A) : x = y -> rres eq x y.
Proof. intros ->. apply rres_refl. Qed.

Definition orel {A B} (R : A -> B -> Prop) (x : option A) (y : option B) : Prop :=
  match x, y with Some a, Some b => R a b | None, None => True | _, _ => False end.

Lemma F2_app {A B} (R : A -> B -> Prop) a a' b b' : Forall2 R a a' -> Forall2 R b b' -> Forall2 R (a ++ b) (a' ++ b').
Proof. apply Forall2_app. Qed.
Lemma F2_firstn {A B} (R : A -> B -> Prop) n l l' : Forall2 R l l' -> Forall2 R (firstn n l) (firstn n l').
Proof. intros F. revert n. induction F; intros [|n]; cbn [firstn]; constructor; auto. Qed.
Lemma F2_skipn {A B} (R : A -> B -> Prop) n l l' : Forall2 R l l' -> Forall2 R (skipn n l) (skipn n l').
Proof. intros F. revert n. induction F; intros [|n]; cbn [skipn]; auto. Qed.
Lemma F2_removelast {A B} (R : A -> B -> Prop) l l' : Forall2 R l l' -> Forall2 R (removelast l) (removelast l').
Proof. induction 1 as [|a b l l' H F IH]; [constructor|]. destruct F; cbn [removelast] in *; constructor; auto. Qed.
Lemma F2_map {A B C D} (R : A -> B -> Prop) (S : C -> D -> Prop) f g l l' : (forall a b, R a b -> S (f a) (g b)) -> Forall2 R l l' -> Forall2 S (map f l) (map g l').
Proof. intros H F. induction F; cbn [map]; constructor; auto. Qed.
Lemma F2_flat_map {A B C D} (R : A -> B -> Prop) (S : C -> D -> Prop) f g l l' :
  (forall a b, R a b -> Forall2 S (f a) (g b)) -> Forall2 R l l' -> Forall2 S (flat_map f l) (flat_map g l').
Proof. intros H F. induction F; cbn [flat_map]; [constructor|]. apply Forall2_app; auto. Qed.
Lemma F2_existsb {A B} (R : A -> B -> Prop) p q l l' : (forall a b, R a b -> p a = q b) -> Forall2 R l l' -> existsb p l = existsb q l'.
Proof. intros H F. induction F; cbn [existsb]; [auto|]. rewrite (H _ _ H0), IHF. reflexivity. Qed.
Lemma F2_forallb {A B} (R : A -> B -> Prop) p q l l' : (forall a b, R a b -> p a = q b) -> Forall2 R l l' -> forallb p l = forallb q l'.
Proof. intros H F. induction F; cbn [forallb]; [auto|]. rewrite (H _ _ H0), IHF. reflexivity. Qed.
Lemma F2_find {A B} (R : A -> B -> Prop) p q l l' : (forall a b, R a b -> p a = q b) -> Forall2 R l l' -> orel R (find p l) (find q l').
Proof. intros H F. induction F as [|a b l l' K F IH]; cbn [find]; [exact I|]. rewrite (H _ _ K). destruct (q b); auto. Qed.
Lemma F2_nth {A B} (R : A -> B -> Prop) l l' : Forall2 R l l' -> forall i, orel R (nth_error l i) (nth_error l' i).
Proof. induction 1; intros [|i]; cbn [nth_error]; try exact I; auto. Qed.
Lemma F2_set_nth {A B} (R : A -> B -> Prop) l l' i v v' : R v v' -> Forall2 R l l' -> Forall2 R (set_nth i v l) (set_nth i v' l').
Proof. intros H F. revert i. induction F; intros [|i]; cbn [set_nth]; constructor; auto. Qed.

Section SIM.
Variable Rl : nat -> nat -> Prop.
Hypothesis Rl_eq : forall i i' j j', Rl i i' -> Rl j j' -> Nat.eqb i j = Nat.eqb i' j'.
Variable Rc : cond -> cond -> Prop.
Hypothesis Rc_eq : forall c c' d d', Rc c c' -> Rc d d' -> cond_eqb c d = cond_eqb c' d'.
Hypothesis Rc_str : forall c c' d d', Rc c c' -> Rc d d' -> str_eqb (cond_str c) (cond_str d) = str_eqb (cond_str c') (cond_str d').
Variables e e' : env.
Hypothesis E_shuf : forall t l l', Forall2 Rl l l' -> Forall2 Rl (shuf e t l) (shuf e' t l').
Hypothesis E_split : forall s n, e_split e s n = e_split e' s n.

Definition Rr (r r' : rule) : Prop := Forall2 Rc (conds r) (conds r') /\ rstats r = rstats r'.
Notation Rrs := (Forall2 Rr).
Notation Rls := (Forall2 Rl).

(** ** rules *)
Lemma Rr_len r r' : Rr r r' -> length (conds r) = length (conds r').
Proof. intros [F _]. apply (Forall2_length _ _ _ F). Qed.
Lemma Rr_Rule cs cs' : Forall2 Rc cs cs' -> Rr (Rule_ cs) (Rule_ cs').
Proof. split; auto. Qed.
Lemma Rr_empty r r' : Rr r r' -> rule_isempty r = rule_isempty r'.
Proof. intros [F _]. unfold rule_isempty. destruct F; reflexivity. Qed.
Lemma Rr_set r r' cs cs' : Rr r r' -> Forall2 Rc cs cs' -> Rr (set_conds r cs) (set_conds r' cs').
Proof. intros [_ S] F. split; auto. Qed.
Lemma str_in_rel c c' l l' : Rc c c' -> Forall2 Rc l l' -> str_in (cond_str c) (map cond_str l) = str_in (cond_str c') (map cond_str l').
Proof.
  intros C F. unfold str_in. induction F as [|d d' l l' D F IH]; [reflexivity|]. cbn [map existsb]. rewrite IH. f_equal. apply Rc_str; auto.
Qed.
Lemma subset_rel l l' k k' : Forall2 Rc l l' -> Forall2 Rc k k' -> subset_strs (map cond_str l) (map cond_str k) = subset_strs (map cond_str l') (map cond_str k').
Proof.
  intros F G. unfold subset_strs. induction F as [|d d' l l' D F IH]; [reflexivity|]. cbn [map forallb]. rewrite IH, (str_in_rel d d' k k'); auto.
Qed.
Lemma rule_eqb_rel a a' b b' : Rr a a' -> Rr b b' -> rule_eqb a b = rule_eqb a' b'.
Proof.
  intros A B. unfold rule_eqb, cond_strs. rewrite (Rr_len _ _ A), (Rr_len _ _ B). destruct A as [A _], B as [B _].
  rewrite (subset_rel _ _ _ _ A B), (subset_rel _ _ _ _ B A). reflexivity.
Qed.
Lemma count_rel rs rs' : Rrs rs rs' -> count_conds rs = count_conds rs'.
Proof. intros F. unfold count_conds. f_equal. eapply Forall2_map_eq; [|exact F]. intros. apply Rr_len; auto. Qed.
Lemma rs_add_rel r r' rs rs' : Rr r r' -> Rrs rs rs' -> Rrs (rs_add r rs) (rs_add r' rs').
Proof. intros. unfold rs_add. apply Forall2_app; auto. Qed.
Lemma isuniversal_rel rs rs' : Rrs rs rs' -> rs_isuniversal rs = rs_isuniversal rs'.
Proof. apply F2_existsb. apply Rr_empty. Qed.
Lemma isnull_rel rs rs' : Rrs rs rs' -> rs_isnull rs = rs_isnull rs'.
Proof. intros F. destruct F; reflexivity. Qed.
Lemma rule_in_rel r r' l l' : Rr r r' -> Rrs l l' -> rule_in r l = rule_in r' l'.
Proof. intros R F. unfold rule_in. eapply F2_existsb; [|exact F]. intros; apply rule_eqb_rel; auto. Qed.
Lemma rs_eqb_rel a a' b b' : Rrs a a' -> Rrs b b' -> rs_eqb a b = rs_eqb a' b'.
Proof.
  intros A B. unfold rs_eqb. f_equal; eapply F2_forallb; try exact A; try exact B; intros; apply rule_in_rel; auto.
Qed.
Lemma replaced_rel l l' i o o' : Rrs l l' -> orel Rr o o' -> Rrs (i_replaced l i o) (i_replaced l' i o').
Proof.
  intros F O. unfold i_replaced. destruct o as [x|], o' as [x'|]; try contradiction; repeat apply F2_app; try apply F2_firstn; try apply F2_skipn; auto.
Qed.

(** ** lists of labels *)
Lemma nmem_rel i i' s s' : Rl i i' -> Rls s s' -> nmem i s = nmem i' s'.
Proof. intros A F. unfold nmem. eapply F2_existsb; [|exact F]. intros a b R. apply Rl_eq; auto. Qed.
Lemma set_minus_rel a a' b b' : Rls a a' -> Rls b b' -> Rls (set_minus a b) (set_minus a' b').
Proof. intros A B. unfold set_minus. apply Forall2_filter; auto. intros i j R. rewrite (nmem_rel i j b b'); auto. Qed.
Lemma take_rel {A B} (R : A -> B -> Prop) z l l' : Forall2 R l l' -> Forall2 R (take z l) (take z l').
Proof. intros F. unfold take. rewrite (Forall2_length _ _ _ F). apply F2_firstn; auto. Qed.
Lemma drop_rel {A B} (R : A -> B -> Prop) z l l' : Forall2 R l l' -> Forall2 R (drop z l) (drop z l').
Proof. intros F. unfold drop. rewrite (Forall2_length _ _ _ F). apply F2_skipn; auto. Qed.
Lemma split_rel t s l l' : Rls l l' -> Rls (fst (random_split e t s l)) (fst (random_split e' t s l')) /\ Rls (snd (random_split e t s l)) (snd (random_split e' t s l')).
Proof.
  intros F. unfold random_split. cbn [fst snd]. rewrite E_split, (Forall2_length _ _ _ F). split; [apply take_rel|apply drop_rel]; auto.
Qed.

(** ** pruning and the description length, engine apart *)
Lemma prune_loop_rel m m' r r' : (forall x x', Rr x x' -> m x = m' x') -> Rr r r' -> forall n v best best', orel Rr best best' ->
  rres (orel (orel Rr)) (prune_loop m r n v best) (prune_loop m' r' n v best').
Proof.
  intros M R. induction n as [|n IH]; intros v best best' B; cbn [prune_loop]; [exact B|]. cbn zeta.
  assert (C : Rr (set_conds r (firstn (S n) (conds r))) (set_conds r' (firstn (S n) (conds r')))) by (apply Rr_set; auto; apply F2_firstn; apply R).
  rewrite (M _ _ C). destruct (m' _) as [[q|]|]; cbn [bind rres]; auto; [|exact I]. destruct (Qle_bool v q); apply IH; auto.
Qed.
Lemma prune_rule_rel m m' r r' : (forall x x', Rr x x' -> m x = m' x') -> Rr r r' -> rres (orel Rr) (prune_rule m r) (prune_rule m' r').
Proof.
  intros M R. unfold prune_rule. rewrite (Rr_empty _ _ R). destruct (rule_isempty r'); [exact R|]. rewrite (Rr_len _ _ R).
  eapply rres_bind; [apply prune_loop_rel; auto|]. intros [a|] [b|] H; cbn [orel] in H; try contradiction; cbn [rres]; auto.
Qed.
Lemma prune_rule_on_rel m m' i rs rs' r r' : (forall x x', Rr x x' -> m x = m' x') -> Rrs rs rs' -> Rr r r' ->
  rres (orel Rr) (prune_rule_on m i rs r) (prune_rule_on m' i rs' r').
Proof.
  intros M F R. unfold prune_rule_on. rewrite (Rr_empty _ _ R). destruct (rule_isempty r'); [exact R|]. pose proof (F2_nth _ _ _ F i) as N.
  destruct (nth_error rs i) as [x|], (nth_error rs' i) as [x'|]; cbn [orel] in N; try contradiction; [|reflexivity].
  rewrite (rule_eqb_rel _ _ _ _ N R). destruct (negb (rule_eqb x' r')); [reflexivity|]. rewrite (Rr_len _ _ R).
  eapply rres_bind; [apply prune_loop_rel; auto; exact I|]. intros [[a|]|] [[b|]|] H; cbn [orel] in H; try contradiction; cbn [rres]; auto.
Qed.
Section DL.
Variables exc exc' : list rule -> res Q.
Hypothesis X : forall rs rs', Rrs rs rs' -> exc rs = exc' rs'.
Lemma rs_theory_rel n rs rs' : Rrs rs rs' -> rs_theory n rs = rs_theory n rs'.
Proof. intros F. induction F as [|r r' rs rs' R F IH]; [reflexivity|]. cbn [rs_theory]. rewrite (Rr_len _ _ R), IH. reflexivity. Qed.
Lemma total_bits_rel n rs rs' : Rrs rs rs' -> total_bits exc n rs = total_bits exc' n rs'.
Proof. intros F. unfold total_bits. rewrite (rs_theory_rel _ _ _ F), (X _ _ F). reflexivity. Qed.
Lemma subset_dls_rel n rs rs' : Rrs rs rs' -> forall pre pre' q, Rrs pre pre' -> subset_dls exc n pre q rs = subset_dls exc' n pre' q rs'.
Proof.
  induction 1 as [|r r' rs rs' R F IH]; intros pre pre' q P; [reflexivity|]. cbn [subset_dls]. rewrite (Rr_len _ _ R). destruct (theory_bits _ _) as [a|]; cbn [bind]; [|reflexivity].
  assert (P' : Rrs (pre ++ [r]) (pre' ++ [r'])) by (apply Forall2_app; auto). rewrite (X _ _ P'). destruct (exc' _); cbn [bind]; [|reflexivity].
  rewrite (IH _ _ _ P'). reflexivity.
Qed.
Lemma keep_rules_rel rs rs' : Rrs rs rs' -> forall o dls, Rrs (keep_rules o rs dls) (keep_rules o rs' dls).
Proof.
  induction 1 as [|r r' rs rs' R F IH]; intros o [|d dls]; cbn [keep_rules]; try constructor. apply Forall2_app; auto.
  destruct o as [p|]; [destruct (Qle_bool d p)|]; constructor; auto.
Qed.
Lemma best_subset_rel n rs rs' : Rrs rs rs' -> rres (fun a b => Rrs (fst a) (fst b) /\ snd a = snd b) (best_subset exc n rs) (best_subset exc' n rs').
Proof.
  intros F. unfold best_subset. rewrite (subset_dls_rel n _ _ F [] [] 1%Q (Forall2_nil _)). destruct (subset_dls _ _ _ _ _) as [dls|]; cbn [bind rres]; auto.
  assert (K := keep_rules_rel _ _ F None dls). rewrite (total_bits_rel _ _ _ K). destruct (total_bits _ _ _); cbn [bind rres]; auto.
Qed.
Lemma best_dl_rel n rs rs' : Rrs rs rs' -> (x <- best_subset exc n rs ;; Ok (snd x)) = (x <- best_subset exc' n rs' ;; Ok (snd x)).
Proof.
  intros F. pose proof (best_subset_rel n _ _ F) as H. destruct (best_subset exc n rs) as [[a q]|], (best_subset exc' n rs') as [[b q']|]; cbn [rres bind fst snd] in *; try contradiction; [|congruence].
  destruct H as [_ ->]. reflexivity.
Qed.
Lemma dl_update_rel n r r' rs rs' st d : Rr r r' -> Rrs rs rs' -> dl_update exc n r rs st d = dl_update exc' n r' rs' st d.
Proof. intros R F. unfold dl_update. rewrite (Rr_len _ _ R), (X _ _ F). reflexivity. Qed.
End DL.

(** ** the choice of the optimisation stage *)
Notation Ros := (Forall2 (orel Rr)).
Lemma opt_neq_rel o o' r r' : orel Rr o o' -> Rr r r' -> opt_neq o r = opt_neq o' r'.
Proof. intros O R. destruct o, o'; cbn [orel] in O; try contradiction; cbn [opt_neq]; [|reflexivity]. rewrite (rule_eqb_rel _ _ _ _ O R). reflexivity. Qed.
Lemma opt_in_rel o o' l l' : orel Rr o o' -> Ros l l' -> opt_in o l = opt_in o' l'.
Proof.
  intros O F. destruct o as [r|], o' as [r'|]; cbn [orel] in O; try contradiction; cbn [opt_in]; (eapply F2_existsb; [|exact F]); intros [a|] [b|] H; cbn [orel] in H; try contradiction; auto.
  apply rule_eqb_rel; auto.
Qed.
Lemma force_rel l l' : Ros l l' -> rres Rrs (force_rules l) (force_rules l').
Proof.
  induction 1 as [|a b l l' R F IH]; cbn [force_rules]; [constructor|]. destruct a, b; cbn [orel] in R; try contradiction; [|reflexivity].
  eapply rres_bind; [exact IH|]. intros. cbn [rres]. constructor; auto.
Qed.
Lemma stop_opt_rel h l l' p n : Ros l l' -> stop_early_opt h l p n = stop_early_opt h l' p n.
Proof.
  intros F. unfold stop_early_opt. rewrite (Forall2_length _ _ _ F). destruct (ge_lim _ _); [reflexivity|]. destruct (h_max_total_conds h) as [m|]; [|reflexivity].
  pose proof (force_rel _ _ F) as K. destruct (force_rules l), (force_rules l'); cbn [rres] in K; try contradiction; cbn [bind]; [|congruence]. rewrite (count_rel _ _ K). reflexivity.
Qed.
Lemma choose_rel r r' a a' b b' q0 q1 q2 i new new' : Rr r r' -> orel Rr a a' -> orel Rr b b' -> Ros new new' ->
  rres Ros (choose_rule r a b q0 q1 q2 i new) (choose_rule r' a' b' q0 q1 q2 i new').
Proof.
  intros R A B N. unfold choose_rule. destruct (argmin _ _) as [j|]; cbn [bind rres]; [|reflexivity].
  assert (L3 : Ros [Some r; a; b] [Some r'; a'; b']) by (constructor; [exact R|]; constructor; [exact A|]; constructor; [exact B|constructor]).
  pose proof (F2_nth _ _ _ L3 j) as K.
  destruct (nth_error [Some r; a; b] j) as [o|], (nth_error [Some r'; a'; b'] j) as [o'|]; cbn [orel] in K; try contradiction; [|reflexivity]. cbn [rres].
  rewrite (opt_in_rel o o' new new') by auto. apply F2_set_nth; auto. destruct (opt_in o' new'); auto.
Qed.
Lemma iter_rel pass pass' : (forall t rs rs', Rrs rs rs' -> rres (fun a b => Rrs (fst a) (fst b) /\ snd a = snd b) (pass t rs) (pass' t rs')) ->
  forall k t rs rs', Rrs rs rs' -> rres (fun a b => Rrs (fst a) (fst b) /\ snd a = snd b) (optimize_iter pass k t rs) (optimize_iter pass' k t rs').
Proof.
  intros P. induction k as [|k IH]; intros t rs rs' F; cbn [optimize_iter]; [split; auto|]. eapply rres_bind; [apply P; auto|]. intros [a q] [b q'] [K Q]. cbn [fst snd] in *. subst q'.
  rewrite (rs_eqb_rel _ _ _ _ F K). destruct (_ && _); [split; auto|]. apply IH; auto.
Qed.
Lemma user_halted h r r' : Rr r r' -> Rr (halted_rule h r) (halted_rule h r').
Proof.
  intros R. unfold halted_rule. destruct h; [|exact R]. assert (L := Rr_len _ _ R). destruct (conds r) eqn:A, (conds r') eqn:B; try discriminate; auto.
  unfold pop_cond. apply Rr_set; auto. apply F2_removelast. apply R.
Qed.

Notation Rout := (rres (fun a b : list rule * nat => Rrs (fst a) (fst b) /\ snd a = snd b)).
Lemma out_intro rs rs' t : Rrs rs rs' -> Rout (Ok (rs, t)) (Ok (rs', t)).
Proof. split; auto. Qed.

(** ** The CatNap engine *)
Section CN.
Variables cn cn' : catnap.
Hypothesis C_conds : Forall2 Rc (cn_conds cn) (cn_conds cn').
Hypothesis C_maps : Forall2 (fun p p' => Rc (fst p) (fst p') /\ Rls (snd p) (snd p')) (cn_maps cn) (cn_maps cn').
Hypothesis C_all : Rls (cn_all cn) (cn_all cn').
Lemma cn_get_rel c c' : Rc c c' -> Rls (cn_get cn c) (cn_get cn' c').
Proof.
  intros C. unfold cn_get. pose proof (F2_find _ (fun p => cond_eqb (fst p) c) (fun p => cond_eqb (fst p) c') _ _ (fun a b H => Rc_eq _ _ _ _ (proj1 H) C) (Forall2_rev _ _ _ C_maps)) as K.
  destruct (find _ (rev (cn_maps cn))), (find _ (rev (cn_maps cn'))); cbn [orel] in K; try contradiction; [apply K|constructor].
Qed.
Lemma cond_covers_rel c c' l l' : Rc c c' -> Rls l l' -> Rls (cn_cond_covers cn c l) (cn_cond_covers cn' c' l').
Proof. intros C L. unfold cn_cond_covers. apply Forall2_filter; auto. intros i j R. apply nmem_rel; auto. apply cn_get_rel; auto. Qed.
Lemma maps_rel i i' cs cs' : Rl i i' -> Forall2 Rc cs cs' -> forallb (fun s => nmem i s) (map (cn_get cn) cs) = forallb (fun s => nmem i' s) (map (cn_get cn') cs').
Proof.
  intros R F. eapply F2_forallb with (R := Forall2 Rl); [intros; apply nmem_rel; auto|]. eapply F2_map; [|exact F]. intros; apply cn_get_rel; auto.
Qed.
Lemma rule_covers_rel r r' l l' : Rr r r' -> Rls l l' -> Rls (cn_rule_covers cn r l) (cn_rule_covers cn' r' l').
Proof.
  intros [F _] L. unfold cn_rule_covers. assert (M := fun i i' H => maps_rel i i' _ _ H F). destruct F as [|c c' cs cs' C F].
  - apply Forall2_filter; auto. intros i j R. apply nmem_rel; auto.
  - cbn zeta. apply Forall2_filter; auto.
Qed.
Lemma rs_covers_rel rs rs' l l' : Rrs rs rs' -> Rls l l' -> Rls (cn_rs_covers cn rs l) (cn_rs_covers cn' rs' l').
Proof.
  intros F L. unfold cn_rs_covers. rewrite (isuniversal_rel _ _ F), (isnull_rel _ _ F). destruct (rs_isuniversal rs'); [destruct L; [exact C_all|constructor; auto]|].
  destruct (rs_isnull rs'); [constructor|]. cbn zeta. apply Forall2_filter; auto. intros i j R.
  eapply F2_existsb with (R := Forall2 (Forall2 Rl)); [intros; eapply F2_forallb; [|eassumption]; intros; apply nmem_rel; auto|].
  eapply F2_map; [|exact F]. intros a b [H _]. eapply F2_map; [|exact H]. intros; apply cn_get_rel; auto.
Qed.
Lemma rm_rel r r' p p' n n' : Rr r r' -> Rls p p' -> Rls n n' ->
  Rls (fst (rm_rule_covers_cn cn r p n)) (fst (rm_rule_covers_cn cn' r' p' n')) /\ Rls (snd (rm_rule_covers_cn cn r p n)) (snd (rm_rule_covers_cn cn' r' p' n')).
Proof. intros R P N. unfold rm_rule_covers_cn. cbn [fst snd]. split; apply set_minus_rel; auto; apply rule_covers_rel; auto. Qed.
Lemma best_scan_rel {C} (R : C -> C -> Prop) g g' l l' : (forall c c', R c c' -> g c = g' c') -> Forall2 R l l' -> forall b b',
  orel (fun x y => R (fst x) (fst y) /\ snd x = snd y) b b' -> orel (fun x y : C * Q => R (fst x) (fst y) /\ snd x = snd y) (best_scan g b l) (best_scan g' b' l').
Proof.
  intros G F. induction F as [|c c' l l' H F IH]; intros b b' B; cbn [best_scan]; auto. rewrite (G _ _ H).
  destruct b as [[x q]|], b' as [[x' q']|]; cbn [orel fst snd] in B; try contradiction; [|apply IH; split; auto].
  destruct B as [B <-]. destruct (Qlt_b q (g' c')); apply IH; split; auto.
Qed.
Lemma succ_cn_rel r r' p p' n n' : Rr r r' -> Rls p p' -> Rls n n' -> orel Rr (best_rule_successor_cn cn r p n) (best_rule_successor_cn cn' r' p' n').
Proof.
  intros R P N. unfold best_rule_successor_cn. cbn zeta. assert (RP := rule_covers_rel r r' p p' R P). assert (RN := rule_covers_rel r r' n n' R N).
  pose proof (best_scan_rel Rc (fun c => gain_cn cn c (cn_rule_covers cn r p) (cn_rule_covers cn r n)) (fun c => gain_cn cn' c (cn_rule_covers cn' r' p') (cn_rule_covers cn' r' n')) (cn_conds cn) (cn_conds cn')) as K.
  specialize (K ltac:(intros c c' C; unfold gain_cn; rewrite (Forall2_length _ _ _ RP), (Forall2_length _ _ _ RN), (Forall2_length _ _ _ (cond_covers_rel _ _ _ _ C RP)), (Forall2_length _ _ _ (cond_covers_rel _ _ _ _ C RN)); reflexivity) C_conds None None I).
  destruct (best_scan _ None (cn_conds cn)) as [[c v]|], (best_scan _ None (cn_conds cn')) as [[c' v']|]; cbn [orel fst snd] in K; try contradiction; [|exact I].
  destruct K as [K <-]. destruct (Qlt_b 1 v); cbn [orel]; auto. apply Rr_Rule. apply Forall2_app; [apply R|constructor; auto].
Qed.
Lemma grow_loop_cn_rel k p p' n n' mc ms : Rls p p' -> Rls n n' -> forall r r', Rr r r' -> rres Rr (grow_loop_cn k cn p n mc ms r) (grow_loop_cn k cn' p' n' mc ms r').
Proof.
  intros P N. induction k as [|k IH]; intros r r' R; cbn [grow_loop_cn]; [reflexivity|]. cbn zeta.
  rewrite (Forall2_length _ _ _ (rule_covers_rel _ _ _ _ R N)), (Forall2_length _ _ _ (rule_covers_rel _ _ _ _ R P)), (Rr_len _ _ R).
  destruct (_ =? 0); [exact R|]. destruct (user_halt _ _ _ _ _); [apply user_halted; auto|]. pose proof (succ_cn_rel _ _ _ _ _ _ R P N) as K.
  destruct (best_rule_successor_cn cn r p n), (best_rule_successor_cn cn' r' p' n'); cbn [orel] in K; try contradiction; auto.
Qed.
Lemma grow_rule_cn_rel p p' n n' mc ms r r' : Rls p p' -> Rls n n' -> Rr r r' -> rres Rr (grow_rule_cn cn p n mc ms r) (grow_rule_cn cn' p' n' mc ms r').
Proof. intros P N R. unfold grow_rule_cn. rewrite (Forall2_length _ _ _ N). apply grow_loop_cn_rel; auto. Qed.
Lemma exceptions_cn_rel rs rs' p p' n n' : Rls p p' -> Rls n n' -> Rrs rs rs' -> exceptions_cn cn rs p n = exceptions_cn cn' rs' p' n'.
Proof.
  intros P N F. unfold exceptions_cn. rewrite (Forall2_length _ _ _ P), (Forall2_length _ _ _ N), (Forall2_length _ _ _ (rs_covers_rel _ _ _ _ F P)), (Forall2_length _ _ _ (rs_covers_rel _ _ _ _ F N)). reflexivity.
Qed.
Ltac len P := rewrite (Forall2_length _ _ _ P).
Lemma irep_loop_cn_rel h : forall k t rs rs' p p' n n', Rrs rs rs' -> Rls p p' -> Rls n n' -> Rout (irep_loop_cn k e h cn t rs p n) (irep_loop_cn k e' h cn' t rs' p' n').
Proof.
  induction k as [|k IH]; intros t rs rs' p p' n n' F P N; cbn [irep_loop_cn]; [reflexivity|]. rewrite (Forall2_length _ _ _ P), (Forall2_length _ _ _ N), (Forall2_length _ _ _ F), (count_rel _ _ F).
  destruct (_ =? 0); [apply out_intro; auto|]. destruct (stop_early _ _ _ _ _ _ _); [apply out_intro; auto|].
  destruct (split_rel t (grow_size h) p p' P) as [PG PP]. destruct (split_rel (S t) (grow_size h) n n' N) as [NG NP].
  destruct (random_split e t (grow_size h) p) as [pg pp], (random_split e' t (grow_size h) p') as [pg' pp'], (random_split e (S t) (grow_size h) n) as [ng np], (random_split e' (S t) (grow_size h) n') as [ng' np'].
  cbn [fst snd] in PG, PP, NG, NP. eapply rres_bind; [apply grow_rule_cn_rel; auto; apply Rr_Rule; constructor|]. intros g g' G.
  destruct (prune_off h).
  - apply IH; auto; [apply rs_add_rel; auto|]. apply set_minus_rel; auto. apply rule_covers_rel; auto.
  - eapply rres_bind.
    + apply prune_rule_rel; [|exact G]. intros x x' X. cbv beta. rewrite (Forall2_length _ _ _ PP), (Forall2_length _ _ _ NP), (Forall2_length _ _ _ (rule_covers_rel _ _ _ _ X PP)), (Forall2_length _ _ _ (rule_covers_rel _ _ _ _ X NP)). reflexivity.
    + intros [b|] [b'|] B; cbn [orel] in B; try contradiction; [|reflexivity].
      rewrite (Forall2_length _ _ _ (rule_covers_rel _ _ _ _ B PP)), (Forall2_length _ _ _ (rule_covers_rel _ _ _ _ B NP)). destruct (bad_precision _); [apply out_intro; auto|].
      destruct (rm_rel _ _ _ _ _ _ B P N) as [A1 A2]. destruct (rm_rule_covers_cn cn b p n), (rm_rule_covers_cn cn' b' p' n'). cbn [fst snd] in A1, A2. apply IH; auto. apply rs_add_rel; auto.
Qed.
Lemma irep_grow_cn_rel h t rs rs' p p' n n' : Rrs rs rs' -> Rls p p' -> Rls n n' -> Rout (irep_grow_cn e h cn t rs p n) (irep_grow_cn e' h cn' t rs' p' n').
Proof. intros F P N. unfold irep_grow_cn. rewrite (Forall2_length _ _ _ P). apply irep_loop_cn_rel; auto. Qed.
Lemma ripper_loop_cn_rel h p0 p0' n0 n0' : Rls p0 p0' -> Rls n0 n0' -> forall k t rs rs' st d p p' n n', Rrs rs rs' -> Rls p p' -> Rls n n' ->
  Rout (ripper_loop_cn k e h cn p0 n0 t rs st d p n) (ripper_loop_cn k e' h cn' p0' n0' t rs' st d p' n').
Proof.
  intros P0 N0. induction k as [|k IH]; intros t rs rs' st d p p' n n' F P N; cbn [ripper_loop_cn]; [reflexivity|]. rewrite (Forall2_length _ _ _ P), (Forall2_length _ _ _ N), (Forall2_length _ _ _ F), (count_rel _ _ F).
  destruct (_ || _); [apply out_intro; auto|]. destruct (stop_early _ _ _ _ _ _ _); [apply out_intro; auto|].
  destruct (split_rel t (grow_size h) p p' P) as [PG PP]. destruct (split_rel (S t) (grow_size h) n n' N) as [NG NP].
  destruct (random_split e t (grow_size h) p) as [pg pp], (random_split e' t (grow_size h) p') as [pg' pp'], (random_split e (S t) (grow_size h) n) as [ng np], (random_split e' (S t) (grow_size h) n') as [ng' np'].
  cbn [fst snd] in PG, PP, NG, NP. rewrite (Forall2_length _ _ _ PG). destruct (_ =? 0); [apply out_intro; auto|].
  eapply rres_bind; [apply grow_rule_cn_rel; auto; apply Rr_Rule; constructor|]. intros g g' G. rewrite (Rr_empty _ _ G). destruct (rule_isempty g'); [apply out_intro; auto|].
  eapply rres_bind with (R := orel Rr).
  - destruct (prune_off h); [exact G|]. apply prune_rule_rel; [|exact G]. intros x x' X. cbv beta. rewrite (Forall2_length _ _ _ (rule_covers_rel _ _ _ _ X PP)), (Forall2_length _ _ _ (rule_covers_rel _ _ _ _ X NP)). reflexivity.
  - intros [b|] [b'|] B; cbn [orel] in B; try contradiction; [|reflexivity]. cbn zeta.
    assert (F' : Rrs (rs_add b rs) (rs_add b' rs')) by (apply rs_add_rel; auto).
    rewrite (dl_update_rel (fun x => exceptions_cn cn x p0 n0) (fun x => exceptions_cn cn' x p0' n0') (fun x x' X => exceptions_cn_rel x x' _ _ _ _ P0 N0 X) (length (cn_conds cn)) _ _ _ _ st d B F').
    rewrite (Forall2_length _ _ _ C_conds). destruct (dl_update _ _ _ _ _ _) as [[st' d']|]; cbn [bind]; [|reflexivity].
    destruct (rm_rel _ _ _ _ _ _ B P N) as [A1 A2]. destruct (rm_rule_covers_cn cn b p n), (rm_rule_covers_cn cn' b' p' n'). cbn [fst snd] in A1, A2. apply IH; auto.
Qed.
Lemma ripper_grow_cn_rel h t rs rs' p p' n n' : Rrs rs rs' -> Rls p p' -> Rls n n' -> Rout (ripper_grow_cn e h cn t rs p n) (ripper_grow_cn e' h cn' t rs' p' n').
Proof. intros F P N. unfold ripper_grow_cn. rewrite (Forall2_length _ _ _ P). apply ripper_loop_cn_rel; auto. Qed.
Lemma optimize_loop_cn_rel h orig orig' dl p0 p0' n0 n0' : Rrs orig orig' -> Rls p0 p0' -> Rls n0 n0' -> forall todo todo', Rrs todo todo' -> forall t i new new' p p' n n', Ros new new' -> Rls p p' -> Rls n n' ->
  rres (fun a b => Ros (fst a) (fst b) /\ snd a = snd b) (optimize_loop_cn e h cn orig dl p0 n0 t i todo new p n) (optimize_loop_cn e' h cn' orig' dl p0' n0' t i todo' new' p' n').
Proof.
  intros OR P0 N0. induction 1 as [|r r' todo todo' R F IH]; intros t i new new' p p' n n' NW P N; cbn [optimize_loop_cn]; [split; auto|].
  destruct (split_rel t (grow_size h) p p' P) as [PG PP]. destruct (split_rel (S t) (grow_size h) n n' N) as [NG NP].
  destruct (random_split e t (grow_size h) p) as [pg pp], (random_split e' t (grow_size h) p') as [pg' pp'], (random_split e (S t) (grow_size h) n) as [ng np], (random_split e' (S t) (grow_size h) n') as [ng' np'].
  cbn [fst snd] in PG, PP, NG, NP. rewrite (Forall2_length _ _ _ PG). destruct (_ =? 0); [split; auto|].
  rewrite (stop_opt_rel h _ _ _ _ NW), (Forall2_length _ _ _ P), (Forall2_length _ _ _ N). destruct (stop_early_opt _ _ _ _) as [[|]|]; cbn [bind]; [split; auto| |reflexivity].
  assert (M : forall x x', Rr x x' -> accuracy_metric (length pp) (length np) (length (cn_rule_covers cn x pp)) (length (cn_rule_covers cn x np)) =
    accuracy_metric (length pp') (length np') (length (cn_rule_covers cn' x' pp')) (length (cn_rule_covers cn' x' np'))).
  { intros x x' X. rewrite (Forall2_length _ _ _ PP), (Forall2_length _ _ _ NP), (Forall2_length _ _ _ (rule_covers_rel _ _ _ _ X PP)), (Forall2_length _ _ _ (rule_covers_rel _ _ _ _ X NP)). reflexivity. }
  assert (XC := fun x x' X => exceptions_cn_rel x x' _ _ _ _ P0 N0 X).
  eapply rres_bind; [apply grow_rule_cn_rel; auto; apply Rr_Rule; constructor|]. intros g g' G.
  eapply rres_bind; [apply prune_rule_on_rel; auto; apply replaced_rel; auto; exact G|]. intros a a' A.
  eapply rres_bind; [apply grow_rule_cn_rel; auto|]. intros g2 g2' G2.
  eapply rres_bind; [apply prune_rule_on_rel; auto; apply replaced_rel; auto; exact G2|]. intros b b' B.
  rewrite (opt_neq_rel _ _ _ _ A R), (opt_neq_rel _ _ _ _ B R).
  rewrite (total_bits_rel _ _ XC (length (cn_conds cn)) _ _ (replaced_rel _ _ i _ _ OR A)), (total_bits_rel _ _ XC (length (cn_conds cn)) _ _ (replaced_rel _ _ i _ _ OR B)), (Forall2_length _ _ _ C_conds).
  eapply rres_bind; [apply rres_refl|]. intros q1 q1' <-. eapply rres_bind; [apply rres_refl|]. intros q2 q2' <-.
  eapply rres_bind; [apply choose_rel; eauto|]. intros nw nw' NW'.
  destruct (rm_rel _ _ _ _ _ _ R P N) as [A1 A2]. destruct (rm_rule_covers_cn cn r p n), (rm_rule_covers_cn cn' r' p' n'). cbn [fst snd] in A1, A2.
  rewrite (Forall2_length _ _ _ A1). destruct (_ =? 0); [split; auto|]. apply IH; auto.
Qed.
Lemma Ros_some rs rs' : Rrs rs rs' -> Ros (map Some rs) (map Some rs').
Proof. intros F. eapply F2_map; [|exact F]. auto. Qed.
Lemma optimize_cn_rel h p p' n n' : Rls p p' -> Rls n n' -> forall t rs rs', Rrs rs rs' -> Rout (optimize_cn e h cn t rs p n) (optimize_cn e' h cn' t rs' p' n').
Proof.
  intros P N t rs rs' F. unfold optimize_cn. rewrite <- (Forall2_length _ _ _ C_conds).
  eapply rres_bind; [eapply best_subset_rel; [intros x x' X; apply (exceptions_cn_rel x x' _ _ _ _ P N X)|exact F]|]. intros [s q] [s' q'] [_ Q]. cbn [snd] in Q. subst q'.
  eapply rres_bind; [apply optimize_loop_cn_rel; auto; apply Ros_some; auto|]. intros [nw t1] [nw' t1'] [NW T]. cbn [fst snd] in NW, T. subst t1'.
  eapply rres_bind; [apply force_rel; auto|]. intros. apply out_intro; auto.
Qed.
Lemma cover_cn_rel h p p' n n' t rs rs' : Rls p p' -> Rls n n' -> Rrs rs rs' -> Rout (cover_remaining_cn e h cn t rs p n) (cover_remaining_cn e' h cn' t rs' p' n').
Proof. intros P N F. unfold cover_remaining_cn. rewrite (Forall2_length _ _ _ P). destruct (1 <=? _); [apply ripper_grow_cn_rel; auto|apply out_intro; auto]. Qed.
Lemma ripper_cn_rel h p p' n n' init init' : Rls p p' -> Rls n n' -> Rrs init init' ->
  rres Rrs ('(rs1, t1) <- ripper_grow_cn e h cn 0 init p n ;; '(rs2, t2) <- optimize_iter (fun t rs => optimize_cn e h cn t rs p n) (h_k h) t1 rs1 ;;
    '(rs3, _) <- cover_remaining_cn e h cn t2 rs2 p n ;; '(rs4, _) <- best_subset (fun x => exceptions_cn cn x p n) (length (cn_conds cn)) rs3 ;; Ok rs4)
   ('(rs1, t1) <- ripper_grow_cn e' h cn' 0 init' p' n' ;; '(rs2, t2) <- optimize_iter (fun t rs => optimize_cn e' h cn' t rs p' n') (h_k h) t1 rs1 ;;
    '(rs3, _) <- cover_remaining_cn e' h cn' t2 rs2 p' n' ;; '(rs4, _) <- best_subset (fun x => exceptions_cn cn' x p' n') (length (cn_conds cn')) rs3 ;; Ok rs4).
Proof.
  intros P N F. eapply rres_bind; [apply ripper_grow_cn_rel; eauto|]. intros [r1 t1] [r1' t1'] [F1 T1]. cbn [fst snd] in F1, T1. subst t1'.
  eapply rres_bind; [eapply iter_rel; [|exact F1]; intros; apply optimize_cn_rel; auto|]. intros [r2 t2] [r2' t2'] [F2 T2]. cbn [fst snd] in F2, T2. subst t2'.
  eapply rres_bind; [apply cover_cn_rel; eauto|]. intros [r3 t3] [r3' t3'] [F3 _]. cbn [fst snd] in F3.
  rewrite <- (Forall2_length _ _ _ C_conds). eapply rres_bind; [eapply best_subset_rel; [intros x x' X; apply (exceptions_cn_rel x x' _ _ _ _ P N X)|exact F3]|].
  intros [s q] [s' q'] [F4 _]. exact F4.
Qed.
End CN.

(** ** The DataFrame engine *)
Section DF.
Variables cols cols' : list pyval.
Variable Rw : row -> row -> Prop.
Hypothesis W_lab : forall r r', Rw r r' -> Rl (rlab r) (rlab r').
Hypothesis W_cell : forall r r' c c', Rw r r' -> Rc c c' -> cell_eq cols (cfeat c) (cval c) r = cell_eq cols' (cfeat c') (cval c') r'.
Notation Rws := (Forall2 Rw).
Hypothesis W_upd : forall old old' p p' n n', Forall2 Rc old old' -> Rws p p' -> Rws n n' ->
  Forall2 Rc (update_possible_conds (set_order e) old (mkframe cols p) (mkframe cols n)) (update_possible_conds (set_order e') old' (mkframe cols' p') (mkframe cols' n')).
Lemma labels_rel l l' : Rws l l' -> Rls (labels l) (labels l').
Proof. intros F. unfold labels. eapply F2_map; [|exact F]. auto. Qed.
Lemma loc_rel l l' i i' : Rws l l' -> Rls i i' -> Rws (loc l i) (loc l' i').
Proof. intros L F. unfold loc. eapply F2_flat_map; [|exact F]. intros a b R. apply Forall2_filter; auto. Qed.
Lemma drop_labels_rel l l' i i' : Rws l l' -> Rls i i' -> Rws (drop_labels l i) (drop_labels l' i').
Proof. intros L F. unfold drop_labels. apply Forall2_filter; auto. intros a b R. rewrite (nmem_rel (rlab a) (rlab b) i i'); auto. Qed.
Lemma df_split_rel t s l l' : Rws l l' -> Rws (fst (df_shuffled_split e t s l)) (fst (df_shuffled_split e' t s l')) /\ Rws (snd (df_shuffled_split e t s l)) (snd (df_shuffled_split e' t s l')).
Proof.
  intros F. unfold df_shuffled_split. destruct (split_rel t s _ _ (labels_rel _ _ F)) as [A B]. destruct (random_split e t s (labels l)), (random_split e' t s (labels l')). cbn [fst snd] in *.
  split; apply loc_rel; auto.
Qed.
Lemma row_sat_rel r r' w w' : Rr r r' -> Rw w w' -> row_sat cols r w = row_sat cols' r' w'.
Proof. intros [F _] W. unfold row_sat. eapply F2_forallb; [|exact F]. intros. apply W_cell; auto. Qed.
Lemma rcov_rel r r' l l' : Rr r r' -> Rws l l' -> Rws (rcov cols r l) (rcov cols' r' l').
Proof. intros R F. unfold rcov. apply Forall2_filter; auto. intros. apply row_sat_rel; auto. Qed.
Lemma rs_rcov_rel rs rs' l l' : Rrs rs rs' -> Rws l l' -> Rws (rs_rcov cols rs l) (rs_rcov cols' rs' l').
Proof.
  intros F L. unfold rs_rcov. rewrite (isuniversal_rel _ _ F), (isnull_rel _ _ F). destruct (rs_isuniversal rs'); auto. destruct (rs_isnull rs'); [constructor|].
  eapply F2_flat_map; [|exact F]. intros. apply rcov_rel; auto.
Qed.
Lemma rm_df_rel r r' l l' : Rr r r' -> Rws l l' -> Rws (drop_labels l (labels (rcov cols r l))) (drop_labels l' (labels (rcov cols' r' l'))).
Proof. intros. apply drop_labels_rel; auto. apply labels_rel. apply rcov_rel; auto. Qed.
Lemma successors_rel r r' l l' : Rr r r' -> Forall2 Rc l l' -> Rrs (successors r l) (successors r' l').
Proof.
  intros [R _] F. unfold successors. eapply F2_map with (R := Rc); [intros; apply Rr_Rule; apply Forall2_app; auto|]. apply Forall2_filter; auto.
  intros c c' C. f_equal. eapply F2_existsb; [|exact R]. intros. apply Rc_eq; auto.
Qed.
Lemma succ_scan_rel g g' l l' : (forall r r', Rr r r' -> g r = g' r') -> Rrs l l' -> forall q b b', orel Rr b b' -> orel Rr (best_succ_scan g q b l) (best_succ_scan g' q b' l').
Proof.
  intros G F. induction F as [|r r' l l' R F IH]; intros q b b' B; cbn [best_succ_scan]; auto. rewrite (G _ _ R). destruct (Qlt_b q (g' r')); apply IH; auto.
Qed.
Lemma best_succ_rel r r' po po' p p' n n' : Rr r r' -> Forall2 Rc po po' -> Rws p p' -> Rws n n' -> orel Rr (best_successor cols r po p n) (best_successor cols' r' po' p' n').
Proof.
  intros R PO P N. unfold best_successor. apply succ_scan_rel; [|apply successors_rel; auto|exact I]. intros s s' S. unfold gain_df.
  rewrite (Forall2_length _ _ _ (rcov_rel _ _ _ _ R P)), (Forall2_length _ _ _ (rcov_rel _ _ _ _ R N)), (Forall2_length _ _ _ (rcov_rel _ _ _ _ S P)), (Forall2_length _ _ _ (rcov_rel _ _ _ _ S N)). reflexivity.
Qed.
Lemma grow_loop_rel k po po' p p' n n' mc ms : Forall2 Rc po po' -> Rws p p' -> Rws n n' -> forall r r', Rr r r' -> rres Rr (grow_loop k cols po p n mc ms r) (grow_loop k cols' po' p' n' mc ms r').
Proof.
  intros PO P N. induction k as [|k IH]; intros r r' R; cbn [grow_loop]; [reflexivity|]. cbn zeta.
  rewrite (Forall2_length _ _ _ (rcov_rel _ _ _ _ R N)), (Forall2_length _ _ _ (rcov_rel _ _ _ _ R P)), (Rr_len _ _ R).
  destruct (_ =? 0); [exact R|]. destruct (user_halt _ _ _ _ _); [apply user_halted; auto|]. pose proof (best_succ_rel _ _ _ _ _ _ _ _ R PO P N) as K.
  destruct (best_successor cols r po p n), (best_successor cols' r' po' p' n'); cbn [orel] in K; try contradiction; auto.
Qed.
Lemma grow_rule_rel po po' p p' n n' mc ms r r' : Forall2 Rc po po' -> Rws p p' -> Rws n n' -> Rr r r' -> rres Rr (grow_rule cols po p n mc ms r) (grow_rule cols' po' p' n' mc ms r').
Proof. intros PO P N R. unfold grow_rule. rewrite (Forall2_length _ _ _ N). apply grow_loop_rel; auto. Qed.
Lemma exceptions_df_rel rs rs' p p' n n' : Rws p p' -> Rws n n' -> Rrs rs rs' -> exceptions_df cols rs p n = exceptions_df cols' rs' p' n'.
Proof.
  intros P N F. unfold exceptions_df. rewrite (Forall2_length _ _ _ P), (Forall2_length _ _ _ N), (Forall2_length _ _ _ (rs_rcov_rel _ _ _ _ F P)), (Forall2_length _ _ _ (rs_rcov_rel _ _ _ _ F N)). reflexivity.
Qed.
Lemma irep_loop_rel h po po' : Forall2 Rc po po' -> forall k t rs rs' p p' n n', Rrs rs rs' -> Rws p p' -> Rws n n' -> Rout (irep_loop k e h cols po t rs p n) (irep_loop k e' h cols' po' t rs' p' n').
Proof.
  intros PO. induction k as [|k IH]; intros t rs rs' p p' n n' F P N; cbn [irep_loop]; [reflexivity|]. rewrite (Forall2_length _ _ _ P), (Forall2_length _ _ _ N), (Forall2_length _ _ _ F), (count_rel _ _ F).
  destruct (_ =? 0); [apply out_intro; auto|]. destruct (stop_early _ _ _ _ _ _ _); [apply out_intro; auto|].
  destruct (df_split_rel t (grow_size h) p p' P) as [PG PP]. destruct (df_split_rel (S t) (grow_size h) n n' N) as [NG NP].
  destruct (df_shuffled_split e t (grow_size h) p) as [pg pp], (df_shuffled_split e' t (grow_size h) p') as [pg' pp'], (df_shuffled_split e (S t) (grow_size h) n) as [ng np], (df_shuffled_split e' (S t) (grow_size h) n') as [ng' np'].
  cbn [fst snd] in PG, PP, NG, NP. eapply rres_bind; [apply grow_rule_rel; auto; apply Rr_Rule; constructor|]. intros g g' G.
  destruct (prune_off h).
  - apply IH; auto; [apply rs_add_rel; auto|]. apply rm_df_rel; auto.
  - eapply rres_bind.
    + apply prune_rule_rel; [|exact G]. intros x x' X. cbv beta. rewrite (Forall2_length _ _ _ PP), (Forall2_length _ _ _ NP), (Forall2_length _ _ _ (rcov_rel _ _ _ _ X PP)), (Forall2_length _ _ _ (rcov_rel _ _ _ _ X NP)). reflexivity.
    + intros [b|] [b'|] B; cbn [orel] in B; try contradiction; [|reflexivity].
      rewrite (Forall2_length _ _ _ (rcov_rel _ _ _ _ B PP)), (Forall2_length _ _ _ (rcov_rel _ _ _ _ B NP)). destruct (bad_precision _); [apply out_intro; auto|].
      apply IH; try apply rm_df_rel; auto. apply rs_add_rel; auto.
Qed.
Lemma irep_grow_rel h po po' t rs rs' p p' n n' : Forall2 Rc po po' -> Rrs rs rs' -> Rws p p' -> Rws n n' -> Rout (irep_grow e h cols po t rs p n) (irep_grow e' h cols' po' t rs' p' n').
Proof. intros PO F P N. unfold irep_grow. rewrite (Forall2_length _ _ _ P). apply irep_loop_rel; auto. Qed.
Lemma ripper_loop_rel h po po' p0 p0' n0 n0' : Forall2 Rc po po' -> Rws p0 p0' -> Rws n0 n0' -> forall k t rs rs' st d p p' n n', Rrs rs rs' -> Rws p p' -> Rws n n' ->
  Rout (ripper_loop k e h cols po p0 n0 t rs st d p n) (ripper_loop k e' h cols' po' p0' n0' t rs' st d p' n').
Proof.
  intros PO P0 N0. induction k as [|k IH]; intros t rs rs' st d p p' n n' F P N; cbn [ripper_loop]; [reflexivity|]. rewrite (Forall2_length _ _ _ P), (Forall2_length _ _ _ N), (Forall2_length _ _ _ F), (count_rel _ _ F).
  destruct (_ || _); [apply out_intro; auto|]. destruct (stop_early _ _ _ _ _ _ _); [apply out_intro; auto|].
  destruct (df_split_rel t (grow_size h) p p' P) as [PG PP]. destruct (df_split_rel (S t) (grow_size h) n n' N) as [NG NP].
  destruct (df_shuffled_split e t (grow_size h) p) as [pg pp], (df_shuffled_split e' t (grow_size h) p') as [pg' pp'], (df_shuffled_split e (S t) (grow_size h) n) as [ng np], (df_shuffled_split e' (S t) (grow_size h) n') as [ng' np'].
  cbn [fst snd] in PG, PP, NG, NP. rewrite (Forall2_length _ _ _ PG). destruct (_ =? 0); [apply out_intro; auto|].
  eapply rres_bind; [apply grow_rule_rel; auto; apply Rr_Rule; constructor|]. intros g g' G. rewrite (Rr_empty _ _ G). destruct (rule_isempty g'); [apply out_intro; auto|].
  eapply rres_bind with (R := orel Rr).
  - apply prune_rule_rel; [|exact G]. intros x x' X. cbv beta. rewrite (Forall2_length _ _ _ (rcov_rel _ _ _ _ X PP)), (Forall2_length _ _ _ (rcov_rel _ _ _ _ X NP)). reflexivity.
  - intros [b|] [b'|] B; cbn [orel] in B; try contradiction; [|reflexivity]. cbn zeta.
    assert (F' : Rrs (rs_add b rs) (rs_add b' rs')) by (apply rs_add_rel; auto).
    rewrite (dl_update_rel (fun x => exceptions_df cols x p0 n0) (fun x => exceptions_df cols' x p0' n0') (fun x x' X => exceptions_df_rel x x' _ _ _ _ P0 N0 X) (length po) _ _ _ _ st d B F').
    rewrite (Forall2_length _ _ _ PO). destruct (dl_update _ _ _ _ _ _) as [[st' d']|]; cbn [bind]; [|reflexivity]. apply IH; try apply rm_df_rel; auto.
Qed.
Lemma ripper_grow_rel h po po' t rs rs' p p' n n' : Forall2 Rc po po' -> Rrs rs rs' -> Rws p p' -> Rws n n' -> Rout (ripper_grow e h cols po t rs p n) (ripper_grow e' h cols' po' t rs' p' n').
Proof. intros PO F P N. unfold ripper_grow. rewrite (Forall2_length _ _ _ P). apply ripper_loop_rel; auto. Qed.
Lemma optimize_loop_rel h po po' orig orig' dl p0 p0' n0 n0' : Forall2 Rc po po' -> Rrs orig orig' -> Rws p0 p0' -> Rws n0 n0' -> forall todo todo', Rrs todo todo' -> forall t i new new' p p' n n', Ros new new' -> Rws p p' -> Rws n n' ->
  rres (fun a b => Ros (fst a) (fst b) /\ snd a = snd b) (optimize_loop e h cols po orig dl p0 n0 t i todo new p n) (optimize_loop e' h cols' po' orig' dl p0' n0' t i todo' new' p' n').
Proof.
  intros PO OR P0 N0. induction 1 as [|r r' todo todo' R F IH]; intros t i new new' p p' n n' NW P N; cbn [optimize_loop]; [split; auto|].
  destruct (df_split_rel t (grow_size h) p p' P) as [PG PP]. destruct (df_split_rel (S t) (grow_size h) n n' N) as [NG NP].
  destruct (df_shuffled_split e t (grow_size h) p) as [pg pp], (df_shuffled_split e' t (grow_size h) p') as [pg' pp'], (df_shuffled_split e (S t) (grow_size h) n) as [ng np], (df_shuffled_split e' (S t) (grow_size h) n') as [ng' np'].
  cbn [fst snd] in PG, PP, NG, NP. rewrite (Forall2_length _ _ _ PG). destruct (_ =? 0); [split; auto|].
  rewrite (stop_opt_rel h _ _ _ _ NW), (Forall2_length _ _ _ P), (Forall2_length _ _ _ N). destruct (stop_early_opt _ _ _ _) as [[|]|]; cbn [bind]; [split; auto| |reflexivity]. cbn zeta.
  assert (M : forall x x', Rr x x' -> accuracy_metric (length pp) (length np) (length (rs_rcov cols (set_nth i x orig) pp)) (length (rs_rcov cols (set_nth i x orig) np)) =
    accuracy_metric (length pp') (length np') (length (rs_rcov cols' (set_nth i x' orig') pp')) (length (rs_rcov cols' (set_nth i x' orig') np'))).
  { intros x x' X. assert (SN : Rrs (set_nth i x orig) (set_nth i x' orig')) by (apply F2_set_nth; auto).
    rewrite (Forall2_length _ _ _ PP), (Forall2_length _ _ _ NP), (Forall2_length _ _ _ (rs_rcov_rel _ _ _ _ SN PP)), (Forall2_length _ _ _ (rs_rcov_rel _ _ _ _ SN NP)). reflexivity. }
  assert (XC := fun x x' X => exceptions_df_rel x x' _ _ _ _ P0 N0 X).
  eapply rres_bind; [apply grow_rule_rel; auto; apply Rr_Rule; constructor|]. intros g g' G.
  eapply rres_bind; [apply prune_rule_on_rel; auto; apply replaced_rel; auto; exact G|]. intros a a' A.
  eapply rres_bind; [apply grow_rule_rel; auto|]. intros g2 g2' G2.
  eapply rres_bind; [apply prune_rule_on_rel; auto; apply replaced_rel; auto; exact G2|]. intros b b' B.
  rewrite (opt_neq_rel _ _ _ _ A R), (opt_neq_rel _ _ _ _ B R).
  rewrite (best_dl_rel _ _ XC (length po) _ _ (replaced_rel _ _ i _ _ OR A)), (best_dl_rel _ _ XC (length po) _ _ (replaced_rel _ _ i _ _ OR B)), (Forall2_length _ _ _ PO).
  eapply rres_bind; [apply rres_refl|]. intros q1 q1' <-. eapply rres_bind; [apply rres_refl|]. intros q2 q2' <-.
  eapply rres_bind; [apply choose_rel; eauto|]. intros nw nw' NW'.
  assert (A1 := rm_df_rel _ _ _ _ R P). assert (A2 := rm_df_rel _ _ _ _ R N).
  rewrite (Forall2_length _ _ _ A1). destruct (_ =? 0); [split; auto|]. apply IH; auto.
Qed.
Lemma optimize_rel h po po' p p' n n' : Forall2 Rc po po' -> Rws p p' -> Rws n n' -> forall t rs rs', Rrs rs rs' -> Rout (optimize e h cols po t rs p n) (optimize e' h cols' po' t rs' p' n').
Proof.
  intros PO P N t rs rs' F. unfold optimize. rewrite <- (Forall2_length _ _ _ PO).
  eapply rres_bind; [eapply best_subset_rel; [intros x x' X; apply (exceptions_df_rel x x' _ _ _ _ P N X)|exact F]|]. intros [s q] [s' q'] [_ Q]. cbn [snd] in Q. subst q'.
  eapply rres_bind; [apply optimize_loop_rel; auto; eapply F2_map; [|exact F]; auto|]. intros [nw t1] [nw' t1'] [NW T]. cbn [fst snd] in NW, T. subst t1'.
  eapply rres_bind; [apply force_rel; auto|]. intros. apply out_intro; auto.
Qed.
Lemma cover_rel h po po' p p' n n' t rs rs' : Forall2 Rc po po' -> Rws p p' -> Rws n n' -> Rrs rs rs' ->
  rres (fun a b => Rrs (fst (fst a)) (fst (fst b)) /\ Forall2 Rc (snd (fst a)) (snd (fst b)) /\ snd a = snd b) (cover_remaining e h cols po t rs p n) (cover_remaining e' h cols' po' t rs' p' n').
Proof.
  intros PO P N F. unfold cover_remaining. cbn zeta.
  assert (A1 : Rws (drop_labels p (labels (rs_rcov cols rs p))) (drop_labels p' (labels (rs_rcov cols' rs' p')))) by (apply drop_labels_rel; auto; apply labels_rel; apply rs_rcov_rel; auto).
  assert (A2 : Rws (drop_labels n (labels (rs_rcov cols rs n))) (drop_labels n' (labels (rs_rcov cols' rs' n')))) by (apply drop_labels_rel; auto; apply labels_rel; apply rs_rcov_rel; auto).
  rewrite (Forall2_length _ _ _ A1). destruct (1 <=? _); [|split; auto].
  assert (PO' := W_upd (match rs with [] => [] | _ => po end) (match rs' with [] => [] | _ => po' end) _ _ _ _ ltac:(destruct F; auto) A1 A2).
  eapply rres_bind; [apply ripper_grow_rel; eauto|]. intros [a q] [b q'] [K Q]. cbn [fst snd] in K, Q. subst. split; auto.
Qed.
Lemma ripper_df_rel h po po' p p' n n' init init' : Forall2 Rc po po' -> Rws p p' -> Rws n n' -> Rrs init init' ->
  rres Rrs ('(rs1, t1) <- ripper_grow e h cols po 0 init p n ;; '(rs2, t2) <- optimize_iter (fun t rs => optimize e h cols po t rs p n) (h_k h) t1 rs1 ;;
    '(rs3, po3, _) <- cover_remaining e h cols po t2 rs2 p n ;; '(rs4, _) <- best_subset (fun x => exceptions_df cols x p n) (length po3) rs3 ;; Ok rs4)
   ('(rs1, t1) <- ripper_grow e' h cols' po' 0 init' p' n' ;; '(rs2, t2) <- optimize_iter (fun t rs => optimize e' h cols' po' t rs p' n') (h_k h) t1 rs1 ;;
    '(rs3, po3, _) <- cover_remaining e' h cols' po' t2 rs2 p' n' ;; '(rs4, _) <- best_subset (fun x => exceptions_df cols' x p' n') (length po3) rs3 ;; Ok rs4).
Proof.
  intros PO P N F. eapply rres_bind; [apply ripper_grow_rel; eauto|]. intros [r1 t1] [r1' t1'] [F1 T1]. cbn [fst snd] in F1, T1. subst t1'.
  eapply rres_bind; [eapply iter_rel; [|exact F1]; intros; apply optimize_rel; auto|]. intros [r2 t2] [r2' t2'] [F2 T2]. cbn [fst snd] in F2, T2. subst t2'.
  eapply rres_bind; [apply cover_rel; eauto|]. intros [[r3 po3] t3] [[r3' po3'] t3'] (F3 & PO3 & _). cbn [fst snd] in F3, PO3.
  rewrite <- (Forall2_length _ _ _ PO3). eapply rres_bind; [eapply best_subset_rel; [intros x x' X; apply (exceptions_df_rel x x' _ _ _ _ P N X)|exact F3]|].
  intros [s q] [s' q'] [F4 _]. exact F4.
Qed.
End DF.
End SIM.
