(** * Prop_Refuse.v : C108 -- data without rows or without labels are refused, by every call, with the documented exception *)
From Verif Require Import SessionFacts ClassFacts FitFacts FitRun Prop_Session Prop_Fit Prop_FitModel Prop_Prep Demo.
Open Scope nat_scope.

(** ** The specification: what is wrong with training data, and the exception for it *)
Definition no_rows (X : data) : Prop := match X with DFrame fr => frows fr = [] | DRows l => l = [] end.
(** the names of the columns: those passed as feature_names, else those of the DataFrame, else 0, 1, ... *)
Definition column_names (X : data) (names : option (list pyval)) (f : pyval) : Prop :=
  match names, X with
  | Some l, _ => In f l
  | None, DFrame fr => In f (fcols fr)
  | None, DRows l => exists r t i, l = r :: t /\ i < length r /\ f = PInt (Z.of_nat i)
  end.
Inductive unusable (X : data) : option ydata -> option pyval -> option (list pyval) -> pyerr -> Prop :=
| un_rows y cf names : no_rows X -> unusable X y cf names ValueError
| un_label names : ~ no_rows X -> unusable X None None names ValueError
| un_column f names : ~ no_rows X -> (forall g, column_names X names g -> py_eq g f = false) -> unusable X None (Some f) names IndexError
| un_name n ix vals f names : ~ no_rows X -> (forall m, n = Some m -> py_eq m f = false) -> unusable X (Some (YSeries n ix vals)) (Some f) names NameError.

Lemma no_rows_len X : no_rows X <-> data_len X = 0.
Proof. destruct X as [fr|l]; cbn [no_rows data_len]; [destruct (frows fr)|destruct l]; split; intros; try reflexivity; discriminate. Qed.
Lemma int_names_spec n : forall g, In g (int_names n) -> exists i, i < n /\ g = PInt (Z.of_nat i).
Proof. unfold int_names. intros g I. apply in_map_iff in I. destruct I as (i & <- & I). apply in_seq in I. exists i. split; [lia|reflexivity]. Qed.
Lemma known_listed X names g : ~ no_rows X -> In g (known_names X names) -> column_names X names g.
Proof.
  intros N I. destruct names as [l|]; cbn [known_names column_names] in *; [exact I|]. destruct X as [fr|l]; [exact I|]. destruct l as [|r t]; [destruct N; reflexivity|].
  cbn [hd] in I. apply int_names_spec in I. destruct I as (i & L & E). exists r, t, i. auto.
Qed.
Lemma unusable_check X y cf names e : unusable X y cf names e -> check_input X y cf names true = Err e.
Proof.
  unfold check_input. intros U. destruct U as [y cf names N|names N|f names N C|n ix vals f names N C].
  - apply no_rows_len in N. rewrite N. reflexivity.
  - rewrite no_rows_len in N. apply Nat.eqb_neq in N. rewrite N. reflexivity.
  - assert (N' := N). rewrite no_rows_len in N. apply Nat.eqb_neq in N. rewrite N. cbn [negb]. destruct (existsb _ _) eqn:E; [|reflexivity]. apply existsb_exists in E. destruct E as (g & I & E).
    rewrite (C g) in E; [discriminate|]. apply known_listed; auto.
  - rewrite no_rows_len in N. apply Nat.eqb_neq in N. rewrite N. cbn [negb]. destruct n as [m|]; [|reflexivity]. rewrite (C m eq_refl). reflexivity.
Qed.

(** ** C108, fit: unusable data raise the exception for what is wrong with them, for both classifiers, and whatever their parameters and the class asked
    for; the class column, positive class, bins and features stay, and RIPPER's rules too (IREP has dropped its rules by then, see C67). *)
Theorem C108_fit : forall w cl X y cf pc names cnopt kw e, unusable X y cf names e ->
  let r := fit w cl X y cf pc names MNone cnopt kw in
  snd r = Err e /\ c_cf (fst r) = c_cf cl /\ c_pc (fst r) = c_pc cl /\ c_bt (fst r) = c_bt cl /\ c_sel (fst r) = c_sel cl /\ c_feats (fst r) = c_feats cl /\
  (c_alg cl = RIPPER_ -> c_rs (fst r) = c_rs cl).
Proof.
  intros w cl X y cf pc names cnopt kw e U. cbv zeta. apply unusable_check in U.
  assert (P : forall n, preprocess_training (w_cut w) n X y cf pc names = Err e) by (intros n; unfold preprocess_training; rewrite U; reflexivity).
  unfold fit. destruct (c_alg cl) eqn:A.
  - cbn [irep_start falsy]. unfold irep_fit. cbn [irep_start falsy]. rewrite P. cbn. repeat (split; [reflexivity|]). discriminate.
  - unfold ripper_fit. rewrite P. cbn. repeat split.
Qed.
Print Assumptions C108_fit.
(** ** C108, with an initial model that can be read, fit raises the same exception. *)
Theorem C108_fit_continued : forall w cl X y cf pc names m x cnopt kw e, unusable X y cf names e -> c_alg cl = RIPPER_ \/ irep_start m = Ok x ->
  snd (fit w cl X y cf pc names m cnopt kw) = Err e.
Proof.
  intros w cl X y cf pc names m x cnopt kw e U M. apply unusable_check in U.
  assert (P : forall n, preprocess_training (w_cut w) n X y cf pc names = Err e) by (intros n; unfold preprocess_training; rewrite U; reflexivity).
  unfold fit. destruct (c_alg cl) eqn:A.
  - destruct M as [M|M]; [discriminate|]. unfold irep_fit. rewrite M, P. reflexivity.
  - unfold ripper_fit. rewrite P. reflexivity.
Qed.
Print Assumptions C108_fit_continued.

(** ** C108, everything else: a classifier with rules and bins refuses a table without rows in every call, and is unchanged. *)
Definition uses (X : data) (k : call) : Prop :=
  match k with
  | Predict Z _ | PredictReasons Z _ | PredictProba Z _ | Score _ Z _ | RuleStats Z _ _ _ | Recalibrate Z _ _ _ _ _ => Z = X
  | _ => False
  end.
Theorem C108_no_rows : forall w cl x cf pc sel bt X k, ready cl x cf pc sel -> c_bt cl = Some bt -> no_rows X -> uses X k ->
  perform w cl k = (cl, Some ValueError).
Proof.
  intros w cl x cf pc sel bt X k [R1 R2 R3 R4 R5] B N U. apply no_rows_len in N. destruct (c_feats cl) as [ff|] eqn:R6; [|destruct R5; reflexivity].
  assert (PF : forall names, prediction_frame cl bt X names = Err ValueError).
  { intros names. unfold prediction_frame. rewrite R2, R3, R4, R6. cbn [attr bind]. unfold preprocess_prediction, check_input. rewrite N. reflexivity. }
  assert (EB : ensure_bt cl = (cl, Ok bt)) by (unfold ensure_bt; rewrite B; reflexivity).
  assert (CP : forall names, clf_predict cl X names = (cl, Err ValueError)) by (intros names; unfold clf_predict; rewrite R1, EB; cbn [bind]; rewrite PF; reflexivity).
  destruct k; cbn [uses] in U; try contradiction; subst X0; cbn [perform].
  - rewrite CP. reflexivity.
  - unfold clf_predict_reasons. rewrite R1, EB. cbn [bind]. rewrite PF. reflexivity.
  - unfold clf_predict_proba. rewrite R1, B. cbn [attr bind]. rewrite PF. reflexivity.
  - unfold clf_score. rewrite CP. reflexivity.
  - unfold clf_rule_stats. rewrite R1, EB. cbn [bind]. rewrite PF. reflexivity.
  - unfold clf_recalibrate. rewrite R2, R3, B.
    assert (PR : forall b, preprocess_recalibrate X y cf names b = Err ValueError) by (intros b; unfold preprocess_recalibrate, check_input; rewrite N; reflexivity).
    destruct discretize; cbn [attr bind]; rewrite PR; reflexivity.
Qed.
Print Assumptions C108_no_rows.
(** ** C108, recalibration: data without the class column (and without y), or with a Series of another name, raise as in fit, and change nothing. *)
Theorem C108_recalibrate : forall cl x cf pc sel bt X y names ms rm discretize e, ready cl x cf pc sel -> c_bt cl = Some bt -> unusable X y (Some cf) names e ->
  clf_recalibrate cl X y names ms rm discretize = (cl, Err e).
Proof.
  intros cl x cf pc sel bt X y names ms rm d e [R1 R2 R3 R4 R5] B U. apply unusable_check in U. unfold clf_recalibrate. rewrite R2, R3, B.
  assert (PR : forall b, preprocess_recalibrate X y cf names b = Err e) by (intros b; unfold preprocess_recalibrate; rewrite U; reflexivity).
  destruct d; cbn [attr bind]; rewrite PR; reflexivity.
Qed.
Print Assumptions C108_recalibrate.

(** each kind of unusable data, with the fitted classifier of Prop_FitModel and a new one *)
Definition fr0 : frame := mkframe [s_ "u"; s_ "v"] [mkrow 0 [s_ "a"; PInt 5]].
Example C108_nonvacuous :
  ready people_clf people_rules (s_ "t") (PInt 1) [s_ "v"] /\ c_bt people_clf = Some people_bt /\
  unusable (DFrame (mkframe [s_ "u"; s_ "v"] [])) None None None ValueError /\
  unusable (DFrame fr0) None None None ValueError /\ unusable (DFrame fr0) None (Some (s_ "t")) None IndexError /\
  unusable (DRows [[s_ "a"; PInt 5]]) None (Some (PInt 2)) None IndexError /\
  unusable (DFrame fr0) (Some (YSeries (Some (s_ "w")) [0] [PInt 1])) (Some (s_ "t")) None NameError /\
  (~ exists e, unusable (DFrame fr0) (Some (YList [PInt 1])) None None e) /\ ~ exists e, unusable (DRows [[s_ "a"; PInt 5]]) None (Some (PInt 1)) None e.
Proof.
  split; [exact people_ready|]. split; [vm_compute; reflexivity|]. split; [constructor; reflexivity|]. split; [constructor; discriminate|].
  split; [constructor; [discriminate|intros g I; repeat (destruct I as [<-|I]; [reflexivity|]); destruct I]|].
  split; [constructor; [discriminate|]; intros g (r & t & i & E & L & ->); injection E as <- <-; cbn in L; destruct i as [|[|i] ]; [reflexivity|reflexivity|lia]|].
  split; [constructor; [discriminate|]; intros m E; injection E as <-; reflexivity|].
  split; intros (e & U).
  - inversion U as [y cf names N| | |]; subst. discriminate N.
  - inversion U as [y cf names N| |f names N C|]; subst; [discriminate N|]. specialize (C (PInt 1)). discriminate C. exists [s_ "a"; PInt 5], [], 1. repeat split. cbn. lia.
Qed.
