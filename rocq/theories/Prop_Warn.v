(** * Prop_Warn.v : C106 -- the warnings of fit and predict are accurate *)
From Verif Require Import TrainSpec TrainView ClfFacts FitFacts FitRun PrepFacts Prop_Fit Prop_FitModel Prop_Prep Prop_Session RuleFacts Demo Warn Prop_OneSided.
Open Scope nat_scope.

Definition no_conditions (rs : list rule) : Prop := exists r, In r rs /\ conds r = [].
Lemma universal_iff rs : rs_isuniversal rs = true <-> no_conditions rs.
Proof.
  unfold rs_isuniversal, no_conditions, rule_isempty. rewrite existsb_exists. split; intros (r & I & E); exists r; split; auto; destruct (conds r); auto; discriminate.
Qed.
Lemma model_warnings_spec rs : (In WUniversal (model_warnings rs) <-> no_conditions rs) /\ (In WEmpty (model_warnings rs) <-> rs = []) /\
  (forall x, In x (model_warnings rs) -> x = WUniversal \/ x = WEmpty).
Proof.
  unfold model_warnings. assert (U := universal_iff rs). destruct (rs_isuniversal rs).
  - split; [split; [intros _; apply U; reflexivity|left; reflexivity]|]. split; [|intros x [<-|[]]; auto]. split; [intros [K|[]]; discriminate K|].
    intros ->. destruct (proj1 U eq_refl) as (r & [] & _).
  - destruct rs as [|r l]; cbn [rs_isnull].
    + split; [split; [intros [K|[]]; discriminate K|intros (r & [] & _)]|]. split; [split; [auto|left; reflexivity]|intros x [<-|[]]; auto].
    + split; [split; [intros []|intros K; apply U in K; discriminate K]|]. split; [split; [intros []|intros K; discriminate K]|intros x []].
Qed.
Lemma range_only cs x : In x (range_warnings cs) -> exists c, x = WRange c /\ In c cs.
Proof.
  induction cs as [|c t IH]; cbn [range_warnings]; [intros []|]. destruct (cval c) as [s| | | |]; try (intros []). destruct (find_floor_ceil s) as [[fc|]|]; [| |intros []].
  - intros I. destruct (IH I) as (d & E & J). exists d. split; [auto|right; auto].
  - intros [<-|I]; [exists c; split; [auto|left; auto]|]. destruct (IH I) as (d & E & J). exists d. split; [auto|right; auto].
Qed.
Lemma get_conds_all l r c : In r l -> In c (conds r) -> exists d, In d (get_conds l) /\ (d = c \/ cond_eqb d c = true).
Proof.
  unfold get_conds. set (step := fun acc r => acc ++ filter (fun c => negb (existsb (fun d => cond_eqb d c) acc)) (conds r)).
  assert (KEEP : forall l acc d, In d acc -> In d (fold_left step l acc)).
  { clear. induction l as [|r l IH]; intros acc d I; cbn [fold_left]; auto. apply IH. unfold step. apply in_or_app. auto. }
  generalize (@nil cond). induction l as [|a l IH]; intros acc I J; [destruct I|]. cbn [fold_left]. destruct I as [->|I]; [|apply IH; auto].
  destruct (existsb (fun d => cond_eqb d c) acc) eqn:E.
  - apply existsb_exists in E. destruct E as (d & D & E). exists d. split; [|right; exact E]. apply KEEP. unfold step. apply in_or_app. auto.
  - exists c. split; [|left; reflexivity]. apply KEEP. unfold step. apply in_or_app. right. apply filter_In. rewrite E. auto.
Qed.
Lemma range_complete cs c s u : mapM range_of cs = Ok u -> In c cs -> cval c = PStr s -> find_floor_ceil s = Ok None -> In (WRange c) (range_warnings cs).
Proof.
  revert u. induction cs as [|a t IH]; intros u M I V F; [destruct I|]. cbn [mapM] in M. binv M. binv M. cbn [range_warnings]. destruct I as [->|I].
  - rewrite V, F. left. reflexivity.
  - specialize (IH _ E0 I V F). unfold range_of in E. destruct (cval a) as [sa| | | |]; try discriminate E. rewrite E. destruct v as [fc|]; [exact IH|right; exact IH].
Qed.
Lemma no_dash_none s : ~ In (ch "-") s -> find_floor_ceil s = Ok None.
Proof. intros N. unfold find_floor_ceil, split_sub. rewrite no_dash_split by auto. cbn [rev app]. rewrite no_dash_positions by auto. reflexivity. Qed.
Lemma ensure_only cl x : In x (ensure_warnings cl) -> exists c, x = WRange c.
Proof. unfold ensure_warnings. destruct (c_bt cl); [intros []|]. destruct (c_rs cl); [|intros []]. intros I. destruct (range_only _ _ I) as (c & E & _). eauto. Qed.
Lemma predict_shape cl X names cl' ps x : clf_predict cl X names = (cl', Ok ps) -> c_rs cl = Some x ->
  predict_warnings cl X names = ensure_warnings cl ++ model_warnings (rs_rules x) /\ c_bt cl' <> None /\ c_rs cl' = Some x /\ exists df, rs_predict (rs_rules x) df = Ok ps.
Proof.
  unfold clf_predict, predict_warnings. intros H R. rewrite R in *. destruct (ensure_bt cl) as [c b] eqn:E. injection H as -> H. binv H. binv H. subst b. rewrite E1.
  split; auto. unfold ensure_bt in E. rewrite R in E. destruct (c_bt cl) as [b|] eqn:B.
  - injection E as <- E. rewrite B. split; [discriminate|]. split; [auto|]. eexists. exact H.
  - injection E as <- E. split; [discriminate|]. split; [exact R|]. eexists. exact H.
Qed.

(** ** C106, predict: it warns "universal" exactly when the model has a rule without conditions, "empty" exactly when it has no rules; and what the
    warning says is true of every prediction made. *)
Theorem C106_predict : forall cl X names cl' ps x, clf_predict cl X names = (cl', Ok ps) -> c_rs cl = Some x ->
  (In WUniversal (predict_warnings cl X names) <-> exists r, In r (rs_rules x) /\ conds r = []) /\
  (In WEmpty (predict_warnings cl X names) <-> rs_rules x = []) /\
  (In WUniversal (predict_warnings cl X names) -> forall b, In b ps -> b = true) /\
  (In WEmpty (predict_warnings cl X names) -> forall b, In b ps -> b = false).
Proof.
  intros cl X names cl' ps x H R. destruct (predict_shape _ _ _ _ _ _ H R) as (E & _ & _ & df & P). rewrite E. clear E H.
  assert (OUT : forall v, (forall c, v <> WRange c) -> (In v (ensure_warnings cl ++ model_warnings (rs_rules x)) <-> In v (model_warnings (rs_rules x)))).
  { intros v N. rewrite in_app_iff. split; [|auto]. intros [I|I]; [|auto]. destruct (ensure_only _ _ I) as (c & K). destruct (N c K). }
  rewrite (OUT WUniversal), (OUT WEmpty) by discriminate. destruct (model_warnings_spec (rs_rules x)) as (A & B & _). rewrite A, B. split; [reflexivity|]. split; [reflexivity|].
  unfold rs_predict, rs_covers in P. split.
  - intros U. apply universal_iff in U. rewrite U in P. cbn [bind] in P. injection P as <-. intros b I. apply in_map_iff in I. destruct I as (r & <- & I). apply nmem_In. apply in_map. exact I.
  - intros N. rewrite N in P. cbn [rs_isuniversal existsb rs_isnull bind] in P. injection P as <-. intros b I. apply in_map_iff in I. destruct I as (r & <- & _). reflexivity.
Qed.
Print Assumptions C106_predict.

(** ** C106: a model that was never fitted also warns, the first time it predicts, about every condition that does not look like a range of numbers;
    afterwards never again. *)
Theorem C106_first_predict : forall cl X names cl' ps x, clf_predict cl X names = (cl', Ok ps) -> c_rs cl = Some x ->
  (forall c, In (WRange c) (predict_warnings cl X names) -> c_bt cl = None /\ exists r, In r (rs_rules x) /\ In c (conds r)) /\
  (c_bt cl = None -> forall r c s, In r (rs_rules x) -> In c (conds r) -> cval c = PStr s -> ~ In (ch "-") s ->
     exists d, (d = c \/ cond_eqb d c = true) /\ In (WRange d) (predict_warnings cl X names)) /\
  forall X2 names2 c, ~ In (WRange c) (predict_warnings cl' X2 names2).
Proof.
  intros cl X names cl' ps x H R. destruct (predict_shape _ _ _ _ _ _ H R) as (E & NB & R' & _). rewrite E.
  assert (NM : forall c, ~ In (WRange c) (model_warnings (rs_rules x))).
  { intros c I. destruct (model_warnings_spec (rs_rules x)) as (_ & _ & O). destruct (O _ I); discriminate. }
  split; [|split].
  - intros c I. apply in_app_or in I. destruct I as [I|I]; [|destruct (NM _ I)]. unfold ensure_warnings in I. destruct (c_bt cl); [destruct I|]. rewrite R in I. split; auto.
    destruct (range_only _ _ I) as (d & Q & J). injection Q as <-. apply get_conds_In. exact J.
  - intros B r c s I J V N. destruct (get_conds_all _ _ _ I J) as (d & D & Q). exists d. split; [exact Q|]. apply in_or_app. left. unfold ensure_warnings. rewrite B, R.
    unfold clf_predict in H. rewrite R in H. unfold ensure_bt in H. rewrite B, R in H. injection H as _ H. binv H. unfold construct_from_ruleset in E0. destruct (mapM range_of _) as [u|] eqn:M; [|discriminate E0].
    assert (VD : cval d = PStr s).
    { destruct Q as [->|Q]; [exact V|]. unfold cond_eqb in Q. apply andb_prop in Q. destruct Q as [_ Q]. rewrite V in Q. destruct (cval d) as [t| | | |]; try discriminate Q. apply str_eqb_eq in Q. subst. reflexivity. }
    eapply range_complete; eauto. apply no_dash_none. exact N.
  - intros X2 names2 c I. unfold predict_warnings in I. rewrite R' in I. apply in_app_or in I. destruct I as [I|I].
    + unfold ensure_warnings in I. destruct (c_bt cl'); [destruct I|congruence].
    + destruct (ensure_bt cl') as [c2 [b|] ]; [|destruct I]. destruct (prediction_frame c2 b X2 names2); [|destruct I]. destruct (NM _ I).
Qed.
Print Assumptions C106_first_predict.

(** ** fit *)
Lemma drop_col_has fr f : has_col fr f = true -> exists x, drop_col fr f = Ok x.
Proof. unfold drop_col, has_col. intros H. destruct (col_pos (fcols fr) f) eqn:J; eauto. exfalso. apply col_pos_none in J. congruence. Qed.
Lemma fit_shape w cl X y cf pc names init cnopt kw cl' df f p bt xi x1 x2 : fit w cl X y cf pc names init cnopt kw = (cl', Ok tt) ->
  fitted w cl X y cf pc names init cnopt kw cl' df f p bt xi x1 x2 -> has_col df f = true ->
  fit_warnings w cl X y cf pc names init cnopt kw =
    param_warnings (c_alg cl) kw ++ preprocess_warnings X y cf pc names ++ class_warnings df f p ++ model_warnings (rs_rules x1).
Proof.
  intros H FT HC. destruct FT as [FP FI FTR _ _ _ _ _ _ _ _ _ _]. unfold fit_pre, fit_nbins in FP. unfold fit_warnings.
  assert (ST : match c_alg cl with IREP_ => _ <- irep_start init ;; Ok tt | RIPPER_ => Ok tt end = Ok tt).
  { unfold fit in H. destruct (c_alg cl); [|reflexivity]. destruct (irep_start init); [reflexivity|discriminate H]. }
  rewrite ST. cbv zeta. rewrite FP. f_equal. f_equal.
  assert (PS : exists a b, pos_neg_split df f p = Ok (a, b) /\ fcols a = fcols df /\ fcols b = fcols df).
  { unfold pos_neg_split. rewrite HC. eexists _, _. split; [reflexivity|]. split; reflexivity. }
  destruct PS as (a & b & PS & CA & CB). destruct (drop_col_has a f) as (a' & DA); [unfold has_col in *; rewrite CA; exact HC|].
  destruct (drop_col_has b f) as (b' & DB); [unfold has_col in *; rewrite CB; exact HC|]. rewrite PS. cbn [bind]. rewrite DA, DB.
  assert (CN : (if cnopt then _ <- cn_make df f ;; Ok tt else Ok tt) = Ok tt).
  { destruct cnopt; [|reflexivity]. unfold cn_make. destruct (drop_col_has df f HC) as (x & ->). reflexivity. }
  rewrite CN. cbn [bind]. f_equal. rewrite FI. cbn [bind]. destruct (c_alg cl); cbn [train] in FTR; unfold hyper_of in FTR; rewrite FTR; reflexivity.
Qed.
Definition about_params (x : warning) : Prop := exists l, x = WParams l.
Lemma param_only a kw x : In x (param_warnings a kw) -> about_params x.
Proof. unfold param_warnings. destruct (filter _ _); [intros []|]. intros [<-|[]]. eexists. reflexivity. Qed.
Lemma single_only vs pc x : In x (single_class_warnings vs pc) -> exists v m, x = WSingleClass v m.
Proof.
  unfold single_class_warnings. destruct pc; [intros []|]. destruct (unique vs) as [|v [|? ?] ]; try (intros []). destruct (get_pos_class vs None); [|intros []]. intros [<-|[]]. eauto.
Qed.
Lemma pre_only X y cf pc names x : In x (preprocess_warnings X y cf pc names) -> exists v m, x = WSingleClass v m.
Proof. unfold preprocess_warnings. destruct (_ <- _ ;; _) as [vs|]; [apply single_only|intros []]. Qed.
Lemma class_only df f p x : In x (class_warnings df f p) -> x = WNoPositive \/ x = WNoNegative.
Proof. unfold class_warnings. destruct (negb _); [intros [<-|[]]; auto|]. destruct (forallb _ _); [intros [<-|[]]; auto|intros []]. Qed.
Lemma class_spec df f p vs : column df f = vs -> vs <> [] ->
  (In WNoPositive (class_warnings df f p) <-> forall v, In v vs -> py_eq v p = false) /\
  (In WNoNegative (class_warnings df f p) <-> forall v, In v vs -> py_eq v p = true).
Proof.
  intros CV NE. unfold class_warnings. rewrite CV. clear CV. destruct (existsb (fun v => py_eq v p) vs) eqn:E; cbn [negb].
  - assert (A : ~ (forall v, In v vs -> py_eq v p = false)). { intros K. apply existsb_exists in E. destruct E as (v & I & E). rewrite (K v I) in E. discriminate. }
    destruct (forallb (fun v => py_eq v p) vs) eqn:F.
    + split; [split; [intros [K|[]]; discriminate K|tauto]|]. split; [intros _; apply forallb_forall; exact F|left; reflexivity].
    + split; [split; [intros []|tauto]|]. split; [intros []|]. intros K. apply forallb_forall in K. congruence.
  - assert (A : forall v, In v vs -> py_eq v p = false).
    { intros v I. destruct (py_eq v p) eqn:Q; auto. assert (existsb (fun v => py_eq v p) vs = true); [apply existsb_exists; eauto|congruence]. }
    split; [split; [auto|left; reflexivity]|]. split; [intros [K|[]]; discriminate K|]. intros K. destruct vs as [|v l]; [congruence|]. specialize (A v (or_introl eq_refl)). specialize (K v (or_introl eq_refl)). congruence.
Qed.
Lemma fit_kept {w cl X y cf pc names init cnopt kw cl' df f p bt xi x1 x2} : fitted w cl X y cf pc names init cnopt kw cl' df f p bt xi x1 x2 ->
  h_max_total_conds (hyper_of cl kw) = None -> (no_conditions (rs_rules x2) <-> no_conditions (rs_rules x1)) /\ (rs_rules x2 = [] <-> rs_rules x1 = []).
Proof.
  intros FT M. assert (F := ft_finish _ _ _ _ _ _ _ _ _ _ _ _ _ _ _ _ _ _ FT). apply finish_conds in F. unfold kept, trim_conds in F. rewrite M in F.
  set (l := rs_rules x1) in *. destruct (remove_duplicates_facts (e_hash (w_env w)) l) as (S & C & _). set (l1 := remove_duplicates (e_hash (w_env w)) l) in *. set (l2 := rs_rules x2) in *.
  assert (SI : forall r, In r l1 -> In r l) by (intros r; apply sublist_In; exact S). clearbody l l1 l2.
  assert (E : map conds l2 = map conds l1) by (clear -F; induction F as [|a b t t' Q F IH]; [reflexivity|]; cbn [map]; rewrite IH, Q; reflexivity). clear F S.
  assert (NC : forall a b, map conds a = map conds b -> no_conditions a -> no_conditions b).
  { intros a b Q (r & I & K). apply (in_map conds) in I. rewrite Q in I. apply in_map_iff in I. destruct I as (r' & Q' & I). exists r'. split; congruence. }
  split; split.
  - intros K. apply (NC _ _ E) in K. destruct K as (r & I & K). exists r. auto.
  - intros (r & I & K). destruct (C r I) as (x & J & Q). apply (NC l1); [auto|]. exists x. split; auto. rewrite rule_eqb_sym in Q. unfold rule_eqb in Q.
    clear -K Q. destruct (conds x) as [|c t] eqn:X; auto. exfalso. rewrite K in Q. cbn in Q. discriminate Q.
  - intros K. rewrite K in E. destruct l1; [|discriminate]. destruct l as [|r t]; auto. destruct (C r (or_introl eq_refl)) as (x & [] & _).
  - intros K. rewrite K in SI. destruct l1 as [|r t]; [destruct l2; [reflexivity|discriminate]|]. destruct (SI r (or_introl eq_refl)).
Qed.

(** the warnings of a successful fit, sorted by kind *)
Lemma fit_sorted w cl X y cf pc names init cnopt kw f vs ix cl' : world_ok w -> training_input X y cf names f vs ix -> NoDup ix ->
  nbins_ok (h_nbins (hyper_of cl kw)) -> fit w cl X y cf pc names init cnopt kw = (cl', Ok tt) ->
  exists df p bt xi x1 x2, fitted w cl X y cf pc names init cnopt kw cl' df f p bt xi x1 x2 /\ column df f = vs /\ vs <> [] /\
    let ws := fit_warnings w cl X y cf pc names init cnopt kw in
    (forall x, x = WNoPositive \/ x = WNoNegative -> (In x ws <-> In x (class_warnings df f p))) /\
    (forall x, x = WUniversal \/ x = WEmpty -> (In x ws <-> In x (model_warnings (rs_rules x1)))) /\
    (forall v m, In (WSingleClass v m) ws <-> In (WSingleClass v m) (preprocess_warnings X y cf pc names)) /\
    (forall l, In (WParams l) ws <-> In (WParams l) (param_warnings (c_alg cl) kw)) /\ (forall c, ~ In (WRange c) ws).
Proof.
  intros WO T ND NB H. destruct (fit_fitted _ _ _ _ _ _ _ _ _ _ _ H) as (df & f' & p & bt & xi & x1 & x2 & FT).
  destruct (pre_good _ _ _ _ _ _ _ _ _ _ _ _ _ _ _ WO NB T ND (ft_pre _ _ _ _ _ _ _ _ _ _ _ _ _ _ _ _ _ _ FT)) as (-> & G & L & HC & NE & CV & _).
  exists df, p, bt, xi, x1, x2. split; [exact FT|]. split; [exact CV|]. split.
  { intros K. assert (Q := TransFacts.column_length df f (proj1 G) HC). rewrite CV, K in Q. destruct (frows df); [congruence|discriminate]. }
  cbv zeta. rewrite (fit_shape _ _ _ _ _ _ _ _ _ _ _ _ _ _ _ _ _ _ H FT HC).
  assert (P1 := param_only (c_alg cl) kw). assert (P2 := pre_only X y cf pc names). assert (P3 := class_only df f p).
  assert (P4 : forall x, In x (model_warnings (rs_rules x1)) -> x = WUniversal \/ x = WEmpty) by apply model_warnings_spec. unfold about_params in P1.
  generalize dependent (param_warnings (c_alg cl) kw). intros a P1. generalize dependent (preprocess_warnings X y cf pc names). intros b P2.
  generalize dependent (class_warnings df f p). intros c P3. generalize dependent (model_warnings (rs_rules x1)). intros d P4. clear -P1 P2 P3 P4.
  assert (A : forall x, In x (a ++ b ++ c ++ d) <-> In x a \/ In x b \/ In x c \/ In x d) by (intros x; rewrite !in_app_iff; tauto).
  repeat split; intros; try (rewrite A in *); try (rewrite A); auto.
  - destruct H0 as [I|[I|[I|I]]]; auto; exfalso; [destruct (P1 _ I)|destruct (P2 _ I) as (? & ? & ?)|destruct (P4 _ I)]; destruct H; congruence.
  - destruct H0 as [I|[I|[I|I]]]; auto; exfalso; [destruct (P1 _ I)|destruct (P2 _ I) as (? & ? & ?)|destruct (P3 _ I)]; destruct H; congruence.
  - destruct H as [I|[I|[I|I]]]; auto; exfalso; [destruct (P1 _ I)|destruct (P3 _ I)|destruct (P4 _ I)]; congruence.
  - destruct H as [I|[I|[I|I]]]; auto; exfalso; [destruct (P2 _ I) as (? & ? & ?)|destruct (P3 _ I)|destruct (P4 _ I)]; congruence.
  - intros [I|[I|[I|I]]]; [destruct (P1 _ I)|destruct (P2 _ I) as (? & ? & ?)|destruct (P3 _ I)|destruct (P4 _ I)]; congruence.
Qed.

(** ** C106, fit: the warning "no positive samples" comes exactly when no label is the positive class, "no negative samples" exactly when all are. *)
Theorem C106_fit_classes : forall w cl X y cf pc names init cnopt kw f vs ix cl' p,
  world_ok w -> training_input X y cf names f vs ix -> NoDup ix -> (h_nbins (hyper_of cl kw) = None \/ exists n, h_nbins (hyper_of cl kw) = Some n /\ (0 <= n)%Z) ->
  fit w cl X y cf pc names init cnopt kw = (cl', Ok tt) -> c_pc cl' = Some p ->
  let ws := fit_warnings w cl X y cf pc names init cnopt kw in
  (In WNoPositive ws <-> forall v, In v vs -> py_eq v p = false) /\ (In WNoNegative ws <-> forall v, In v vs -> py_eq v p = true).
Proof.
  intros w cl X y cf pc names init cnopt kw f vs ix cl' p WO T ND NB H P. cbv zeta.
  assert (NB' : nbins_ok (h_nbins (hyper_of cl kw))) by (destruct NB as [->|(n & -> & ?)]; cbn; auto).
  destruct (fit_sorted _ _ _ _ _ _ _ _ _ _ _ _ _ _ WO T ND NB' H) as (df & q & bt & xi & x1 & x2 & FT & CV & NE & A & _).
  assert (PQ := ft_pc _ _ _ _ _ _ _ _ _ _ _ _ _ _ _ _ _ _ FT). rewrite P in PQ. injection PQ as <-. rewrite (A WNoPositive), (A WNoNegative) by auto. apply class_spec; auto.
Qed.
Print Assumptions C106_fit_classes.
Lemma pre_warn X y cf pc names f vs ix w cl kw z : training_input X y cf names f vs ix -> fit_pre w cl X y cf pc names kw = Ok z ->
  preprocess_warnings X y cf pc names = single_class_warnings vs pc.
Proof.
  intros T E. destruct (input_pre _ _ _ _ _ _ _ T) as (df0 & _ & _ & CV & _ & _ & TD & PR). assert (F : class_feat_name cf y = Some f).
  { assert (Q : snd (fst (fst z)) = f). { rewrite PR in E. binv E. binv E. destruct v0. injection E as <-. reflexivity. }
    unfold fit_pre, preprocess_training in E. binv E. destruct (class_feat_name cf y) as [g|]; [|repeat (binv E); discriminate]. repeat (binv E). destruct v2. injection E as <-. cbn in Q. congruence. }
  unfold fit_pre, preprocess_training in E. binv E. clear E. unfold preprocess_warnings. rewrite E0. cbn [bind]. rewrite F, TD. cbn [bind]. rewrite CV. reflexivity.
Qed.
Lemma single_spec vs pc p v m : get_pos_class vs pc = Ok p -> In (WSingleClass v m) (single_class_warnings vs pc) ->
  pc = None /\ unique vs = [v] /\ m = negb (py_eq v p) /\ p = (if is_false v then PBool true else if py_eq v (PInt 0) then PInt 1 else v).
Proof.
  unfold single_class_warnings. destruct pc as [q|]; [intros _ []|]. destruct (unique vs) as [|u [|? ?] ] eqn:U; try (intros _ []). intros G. rewrite G. intros [E|[]]. injection E as -> <-.
  unfold get_pos_class in G. rewrite U in G. split; auto. split; auto. split; auto. destruct (is_false v); [congruence|]. destruct (py_eq v (PInt 0)); congruence.
Qed.
(** ** C106, fit: with the positive class left to be inferred, it warns that there is only one label exactly when that is so, and says truly which class
    is missing; with the positive class given it never warns about this. *)
Theorem C106_single_label : forall w cl X y cf pc names init cnopt kw f vs ix cl' p,
  world_ok w -> training_input X y cf names f vs ix -> NoDup ix -> (h_nbins (hyper_of cl kw) = None \/ exists n, h_nbins (hyper_of cl kw) = Some n /\ (0 <= n)%Z) ->
  fit w cl X y cf pc names init cnopt kw = (cl', Ok tt) -> c_pc cl' = Some p ->
  let ws := fit_warnings w cl X y cf pc names init cnopt kw in
  ((exists v m, In (WSingleClass v m) ws) <-> pc = None /\ exists a, one_label vs a) /\
  (forall v m, In (WSingleClass v m) ws -> one_label vs v /\ if m then forall u, In u vs -> py_eq u p = false else forall u, In u vs -> py_eq u p = true).
Proof.
  intros w cl X y cf pc names init cnopt kw f vs ix cl' p WO T ND NB H P. cbv zeta.
  assert (NB' : nbins_ok (h_nbins (hyper_of cl kw))) by (destruct NB as [->|(n & -> & ?)]; cbn; auto).
  destruct (fit_sorted _ _ _ _ _ _ _ _ _ _ _ _ _ _ WO T ND NB' H) as (df & q & bt & xi & x1 & x2 & FT & CV & NE & _ & _ & A & _).
  assert (PQ := ft_pc _ _ _ _ _ _ _ _ _ _ _ _ _ _ _ _ _ _ FT). rewrite P in PQ. injection PQ as <-. assert (FP := ft_pre _ _ _ _ _ _ _ _ _ _ _ _ _ _ _ _ _ _ FT).
  assert (PW := pre_warn _ _ _ _ _ _ _ _ _ _ _ _ T FP). rewrite PW in A.
  assert (G : get_pos_class vs pc = Ok p). { destruct (input_pre _ _ _ _ _ _ _ T) as (df0 & _ & _ & _ & _ & _ & _ & PR). rewrite PR in FP. binv FP. binv FP. destruct v0. congruence. }
  assert (ONE : forall v, unique vs = [v] -> one_label vs v).
  { intros v U. split; [apply unique_In; rewrite U; left; auto|]. intros u I. destruct (unique_complete u vs I) as (v' & J & S). rewrite U in J. destruct J as [<-|[]]. exact S. }
  split; [split|].
  - intros (v & m & I). apply A in I. destruct (single_spec _ _ _ _ _ G I) as (N & U & _). split; auto. exists v. auto.
  - intros [-> (a & O)]. destruct (unique_one vs a O) as (v & U & _ & _). exists v, (negb (py_eq v p)). apply A. unfold single_class_warnings. rewrite U, G. left. reflexivity.
  - intros v m I. apply A in I. destruct (single_spec _ _ _ _ _ G I) as (_ & U & -> & EP). destruct (ONE v U) as [IV SA]. split; [split; auto|].
    assert (EQ : forall u, In u vs -> py_eq v u = true \/ v = PNaN /\ u = PNaN).
    { intros u J. specialize (SA u J). unfold same_label, uniq_eq in SA. apply Bool.orb_true_iff in SA. destruct SA as [S|S]; auto. apply andb_prop in S. destruct S as [S1 S2]. right. destruct v, u; try discriminate; auto. }
    destruct (py_eq v p) eqn:VP; cbn [negb]; intros u J; destruct (EQ u J) as [S|[-> ->] ].
    + rewrite py_eq_sym in S. eapply py_eq_trans; eauto.
    + destruct p; discriminate VP.
    + destruct (py_eq u p) eqn:UP; auto. rewrite <- VP. symmetry. eapply py_eq_trans; eauto.
    + destruct p; reflexivity.
Qed.
Print Assumptions C106_single_label.
(** ** C106, fit: unless max_total_conds is set, fit warns "universal" exactly when the fitted model has a rule without conditions, and "empty" exactly
    when it has no rules: the same warnings predict will issue. *)
Theorem C106_fit_model : forall w cl X y cf pc names init cnopt kw f vs ix cl' x,
  world_ok w -> training_input X y cf names f vs ix -> NoDup ix -> (h_nbins (hyper_of cl kw) = None \/ exists n, h_nbins (hyper_of cl kw) = Some n /\ (0 <= n)%Z) ->
  fit w cl X y cf pc names init cnopt kw = (cl', Ok tt) -> c_rs cl' = Some x -> h_max_total_conds (hyper_of cl kw) = None ->
  let ws := fit_warnings w cl X y cf pc names init cnopt kw in
  (In WUniversal ws <-> exists r, In r (rs_rules x) /\ conds r = []) /\ (In WEmpty ws <-> rs_rules x = []).
Proof.
  intros w cl X y cf pc names init cnopt kw f vs ix cl' x WO T ND NB H R M. cbv zeta.
  assert (NB' : nbins_ok (h_nbins (hyper_of cl kw))) by (destruct NB as [->|(n & -> & ?)]; cbn; auto).
  destruct (fit_sorted _ _ _ _ _ _ _ _ _ _ _ _ _ _ WO T ND NB' H) as (df & q & bt & xi & x1 & x2 & FT & _ & _ & _ & A & _).
  assert (RQ := ft_rs _ _ _ _ _ _ _ _ _ _ _ _ _ _ _ _ _ _ FT). rewrite R in RQ. injection RQ as ->. rewrite (A WUniversal), (A WEmpty) by auto.
  destruct (fit_kept FT M) as [K1 K2]. destruct (model_warnings_spec (rs_rules x1)) as (U & E & _). rewrite U, E. unfold no_conditions in *. rewrite K1, K2. tauto.
Qed.
Print Assumptions C106_fit_model.
(** ** C106, fit: it warns about parameters exactly when some of those passed are parameters of the classifier, and names just these. *)
Theorem C106_params : forall w cl X y cf pc names init cnopt kw f vs ix cl',
  world_ok w -> training_input X y cf names f vs ix -> NoDup ix -> (h_nbins (hyper_of cl kw) = None \/ exists n, h_nbins (hyper_of cl kw) = Some n /\ (0 <= n)%Z) ->
  fit w cl X y cf pc names init cnopt kw = (cl', Ok tt) ->
  let ws := fit_warnings w cl X y cf pc names init cnopt kw in
  ((exists l, In (WParams l) ws) <-> exists p v, In (p, v) kw /\ In p (valid_params (c_alg cl))) /\
  forall l, In (WParams l) ws -> forall p, In p l <-> (exists v, In (p, v) kw) /\ In p (valid_params (c_alg cl)).
Proof.
  intros w cl X y cf pc names init cnopt kw f vs ix cl' WO T ND NB H. cbv zeta.
  assert (NB' : nbins_ok (h_nbins (hyper_of cl kw))) by (destruct NB as [->|(n & -> & ?)]; cbn; auto).
  destruct (fit_sorted _ _ _ _ _ _ _ _ _ _ _ _ _ _ WO T ND NB' H) as (df & q & bt & xi & x1 & x2 & FT & _ & _ & _ & _ & _ & A & _).
  assert (M : forall p, In p (filter (fun p => existsb (param_eqb p) (valid_params (c_alg cl))) (map fst kw)) <-> (exists v, In (p, v) kw) /\ In p (valid_params (c_alg cl))).
  { intros p. rewrite filter_In, in_map_iff, existsb_exists. split.
    - intros [((p' & v) & E & I) (q' & J & Q)]. cbn in E. subst p'. apply param_eqb_eq in Q. subst q'. split; eauto.
    - intros [(v & I) J]. split; [exists (p, v); auto|]. exists p. split; auto. apply param_eqb_eq. reflexivity. }
  assert (K : forall l, In (WParams l) (param_warnings (c_alg cl) kw) <-> l <> [] /\ l = filter (fun p => existsb (param_eqb p) (valid_params (c_alg cl))) (map fst kw)).
  { intros l. unfold param_warnings. destruct (filter _ _) as [|p t]; split.
    - intros [].
    - intros [N E]. congruence.
    - intros [E|[]]. injection E as <-. split; [discriminate|reflexivity].
    - intros [_ ->]. left. reflexivity. }
  split; [split|].
  - intros (l & I). apply A, K in I. destruct I as [N E]. destruct l as [|p l]; [congruence|]. destruct (proj1 (M p)) as [(v & I) J]; [rewrite <- E; left; auto|]. eauto.
  - intros (p & v & I & J). exists (filter (fun p => existsb (param_eqb p) (valid_params (c_alg cl))) (map fst kw)). apply A, K. split; auto. intros N.
    assert (X0 := proj2 (M p) (conj (ex_intro _ v I) J)). rewrite N in X0. destruct X0.
  - intros l I p. apply A, K in I. destruct I as [_ ->]. apply M.
Qed.
Print Assumptions C106_params.

(** ** The warnings are about the model before max_total_conds trims it: started from one rule of two conditions with max_total_conds 1, IREP's fit gives
    no warning, and the fitted model is empty. *)
Definition one_long : ruleset := Ruleset_ [Rule_ [c_ "u" "b"; c_ "v" ">-1.0"]].
Definition cut_to_1 : clf := construct IREP_ [(P_nbins, VOpt (Some 2%Z)); (P_max_total_conds, VOpt (Some 1%Z))].
Theorem C106_trimmed_refuted :
  let r := fit w1 cut_to_1 (DRows people) (Some people_y) None None (Some [s_ "u"; s_ "v"]) (MRuleset one_long) true [] in
  snd r = Ok tt /\ option_map rs_rules (c_rs (fst r)) = Some [] /\
  fit_warnings w1 cut_to_1 (DRows people) (Some people_y) None None (Some [s_ "u"; s_ "v"]) (MRuleset one_long) true [] = [] /\
  predict_warnings (fst r) (DRows [[s_ "b"; PInt 7]]) (Some [s_ "u"; s_ "v"]) = [WEmpty].
Proof. repeat split; vm_compute; reflexivity. Qed.
Print Assumptions C106_trimmed_refuted.

(** the warnings of fit on the example table: with labels all 1 and the class given, with the class inferred, with a class that never occurs, and with
    parameters passed to fit; and of two predictions by a model written by hand *)
Definition warned (a : clf) (y : ydata) (pc : option pyval) kw : res unit * list warning :=
  (snd (fit w1 a (DRows people) (Some y) None pc (Some [s_ "u"; s_ "v"]) MNone true kw), fit_warnings w1 a (DRows people) (Some y) None pc (Some [s_ "u"; s_ "v"]) MNone true kw).
Definition by_hand : clf := fst (init_ruleset irep_bins2 (MRuleset (Ruleset_ [Rule_ [c_ "u" "a"; c_ "v" "5 - 9"]])) (s_ "t") (s_ "1")).
Example C106_nonvacuous :
  training_input (DRows people) (Some all_ones) None (Some [s_ "u"; s_ "v"]) (s_ "t") (y_vals all_ones) [10; 11; 12; 13; 14; 15] /\
  warned irep_bins2 all_ones (Some (PInt 1)) [] = (Ok tt, [WNoNegative; WUniversal]) /\
  warned irep_bins2 all_ones None [] = (Ok tt, [WSingleClass (PInt 1) false; WNoNegative; WUniversal]) /\
  warned ripper_bins2 all_ones (Some (PInt 1)) [] = (Ok tt, [WNoNegative; WEmpty]) /\
  warned irep_bins2 people_y (Some (s_ "z")) [] = (Ok tt, [WNoPositive; WEmpty]) /\
  warned irep_bins2 people_y None [(P_max_rules, VOpt (Some 1%Z)); (P_k, VOpt (Some 1%Z))] = (Ok tt, [WParams [P_max_rules]]) /\
  snd (clf_predict by_hand (DRows [[s_ "a"; PInt 7]]) (Some [s_ "u"; s_ "v"])) = Ok [false] /\
  predict_warnings by_hand (DRows [[s_ "a"; PInt 7]]) (Some [s_ "u"; s_ "v"]) = [WRange (c_ "u" "a")].
Proof. split; [exact ones_input|]. repeat split; vm_compute; reflexivity. Qed.
