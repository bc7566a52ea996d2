(** * Prop_Interpret.v : C85 -- interpret_model explains the black box *)
From Verif Require Import TrainSpec TrainView ClfFacts FitRun Prop_Fit Prop_Prep Prop_Classifier Prop_FitModel Prop_Train Prop_Session Prop_Irep Prop_Helpers Demo.
From Coq Require Import Lqa.
Open Scope nat_scope.

(** the name interpret_model gives to the column of the black box's answers *)
Definition answers_column : pyval := PStr (lit "Class").

Lemma table_data_len X fr : table_of X None fr -> data_len X = length (frows fr).
Proof.
  intros T. inversion T as [| |rows w' fr' N W C L F|]; subst; auto. cbn [data_len]. apply (f_equal (@length nat)) in L.
  unfold labels in L. rewrite map_length, seq_length in L. auto.
Qed.
Lemma answers_input X fr l : table_of X None fr -> good_frame fr -> frows fr <> [] -> length l = length (frows fr) ->
  training_input X (Some (YList l)) None None answers_column l (labels (frows fr)).
Proof. intros T G N L. apply (input_labels _ _ _ _ _ _ _ (YList l) fr); auto; try reflexivity. eapply names_default; reflexivity. Qed.
Lemma interpret_fit w X model cl out fr : table_of X None fr -> model X = Ok out -> length (box_vals out) = length (frows fr) ->
  interpret_model w X model cl = (let '(i1, o) := fit w cl X (Some (YList (box_vals out))) None None None MNone true [] in (i1, _ <- o ;; attr (c_rs i1))).
Proof.
  intros T M L. unfold interpret_model. rewrite M. apply table_data_len in T.
  replace (match try_tonum out with inl v => repeat v (data_len X) | inr l => l end) with (box_vals out); auto.
  destruct out as [l|l]; cbn [try_tonum box_vals] in *; auto. destruct l as [|v [|]]; auto. rewrite T, <- L. reflexivity.
Qed.
Lemma interpret_ok w X model cl out fr cl' x : table_of X None fr -> model X = Ok out -> length (box_vals out) = length (frows fr) ->
  interpret_model w X model cl = (cl', Ok x) -> fit w cl X (Some (YList (box_vals out))) None None None MNone true [] = (cl', Ok tt) /\ c_rs cl' = Some x.
Proof.
  intros T M L H. rewrite (interpret_fit w X model cl out fr T M L) in H. destruct (fit w cl X (Some (YList (box_vals out))) None None None MNone true []) as [i1 [[]|e]]; cbn [bind] in H; [|discriminate].
  injection H as <- H. split; auto. unfold attr in H. destruct (c_rs i1); [injection H as ->; auto|discriminate].
Qed.

(** C85. interpret_model(X, model, interpreter) returns the ruleset of the interpreter fitted to the black box's answers on X, which need not
    be named or attached to X. The interpreter then predicts on X, says yes exactly where some returned rule holds, and every returned
    rule is a reason for at least one row to which the black box gave the positive answer; 0/1 or False/True answers: that is 1 / True. *)
Theorem C85_explains : forall w X fr model cl out cl' x,
  world_ok w -> table_of X None fr -> good_frame fr -> frows fr <> [] -> distinct_labels fr ->
  model X = Ok out -> length (box_vals out) = length (frows fr) ->
  let h := hyper_of cl [] in
  (0 <= h_prune h)%Q -> (h_prune h <= 1)%Q -> (h_nbins h = None \/ exists n, h_nbins h = Some n /\ (0 <= n)%Z) ->
  interpret_model w X model cl = (cl', Ok x) ->
  c_rs cl' = Some x /\ c_alg cl' = c_alg cl /\
  exists bt p preds reasons,
    c_bt cl' = Some bt /\ c_pc cl' = Some p /\ (binary (box_vals out) -> is_one p) /\
    (forall a, one_label (box_vals out) a -> (is_zero a -> is_one p) /\ (~ is_zero a -> same_label a p)) /\
    clf_predict cl' X None = (cl', Ok preds) /\ clf_predict_reasons cl' X None = (cl', Ok (preds, reasons)) /\
    length preds = length (frows fr) /\ length reasons = length (frows fr) /\
    (forall i rx, nth_error (frows fr) i = Some rx ->
      (nth_error preds i = Some true <-> some_holds bt (fcols fr) rx (rs_rules x)) /\
      exists rr, nth_error reasons i = Some rr /\ picks (holds bt (fcols fr) rx) (rs_rules x) rr) /\
    (forall r, In r (rs_rules x) -> exists i v rr, nth_error (box_vals out) i = Some v /\ py_eq v p = true /\
      nth_error reasons i = Some rr /\ In r rr /\ nth_error preds i = Some true).
Proof.
  intros w X fr model cl out cl' x WO T G NE D M L h P0 P1 NB H.
  destruct (interpret_ok _ _ _ _ _ _ _ _ T M L H) as [F R]. assert (TI := answers_input X fr (box_vals out) T G NE L).
  split; auto. destruct (C76_training_data w cl X _ None None None true [] answers_column _ _ cl' X None fr fr WO TI D P0 P1 NB F T (predict_plain X None answers_column fr eq_refl T) G D (same_data_refl _ _))
    as (x' & bt & p & preds & reasons & E1 & E2 & E3 & REST).
  assert (x' = x) by congruence. subst x'. split.
  { destruct (fit_trained _ _ _ _ _ _ _ _ _ _ _ _ _ _ WO TI D P0 P1 NB F) as (df & df0 & p1 & bt1 & xi & x1 & x2 & xx & pp & nn & p' & n' & FT & _). apply (ft_alg _ _ _ _ _ _ _ _ _ _ _ _ _ _ _ _ _ _ FT). }
  exists bt, p, preds, reasons. split; auto. split; auto. split.
  { intros B. destruct (C52_binary _ _ _ _ _ _ _ _ _ _ _ _ _ TI F B) as (p2 & Q1 & Q2 & _). congruence. } split; [|exact REST].
  intros a O. destruct (C52_single _ _ _ _ _ _ _ _ _ _ _ _ _ _ TI F O) as (p2 & Q1 & Q2 & Q3). assert (p2 = p) by congruence. subst p2. split; auto. intros Z. apply Q3; auto.
Qed.
Print Assumptions C85_explains.
(** It returns whenever the answers are 0/1, False/True or all the same ... *)
Theorem C85_returns : forall w X fr model cl out,
  world_ok w -> table_of X None fr -> good_frame fr -> frows fr <> [] -> distinct_labels fr ->
  model X = Ok out -> length (box_vals out) = length (frows fr) ->
  (binary (box_vals out) \/ exists a, one_label (box_vals out) a) ->
  let h := hyper_of cl [] in
  (0 <= h_prune h)%Q -> (c_alg cl = RIPPER_ -> ~ (h_prune h == 0)%Q) -> (h_prune h <= 1)%Q -> (0 < h_alpha h)%Q -> (h_nbins h = None \/ exists n, h_nbins h = Some n /\ (0 <= n)%Z) ->
  exists cl' x, interpret_model w X model cl = (cl', Ok x).
Proof.
  intros w X fr model cl out WO T G NE D M L K h P0 PR P1 A NB. assert (TI := answers_input X fr (box_vals out) T G NE L).
  assert (CK : class_known (box_vals out) None) by (right; exact K). rewrite (interpret_fit w X model cl out fr T M L).
  assert (EX : exists cl' x, fit w cl X (Some (YList (box_vals out))) None None None MNone true [] = (cl', Ok tt) /\ c_rs cl' = Some x).
  { destruct (c_alg cl) eqn:EA.
    - eapply C25_irep_fit_total; eauto.
    - assert (0 < h_prune h)%Q by (apply Qle_lteq in P0; destruct P0 as [|P0]; auto; exfalso; apply PR; auto; symmetry; exact P0). eapply C34_ripper_fit_total; eauto. }
  destruct EX as (cl' & x & E & R). exists cl', x. rewrite E. cbn [bind]. rewrite R. reflexivity.
Qed.
Print Assumptions C85_returns.
(** ... raises what the black box raises, leaving the interpreter as it was, and raises if the answers name several classes *)
Theorem C85_raises : forall w X fr model cl,
  (forall e, model X = Err e -> interpret_model w X model cl = (cl, Err e)) /\
  (forall out, table_of X None fr -> good_frame fr -> frows fr <> [] -> model X = Ok out -> length (box_vals out) = length (frows fr) ->
     ~ binary (box_vals out) -> (forall a, ~ one_label (box_vals out) a) ->
     exists e, snd (interpret_model w X model cl) = Err e /\ (e = NameError \/ e = TypeError)).
Proof.
  intros w X fr model cl. split; [intros e M; unfold interpret_model; rewrite M; reflexivity|]. intros out T G NE M L B O.
  assert (TI := answers_input X fr (box_vals out) T G NE L). destruct (C52_otherwise_raises w cl _ _ _ _ _ _ _ true [] TI B O) as (e & E & K). exists e. split; auto.
  rewrite (interpret_fit w X model cl out fr T M L). destruct (fit w cl X (Some (YList (box_vals out))) None None None MNone true []) as [i1 o]. cbn [snd] in E. subst o. reflexivity.
Qed.
Print Assumptions C85_raises.
(** An IREP interpreter without pruning and without limits agrees with the black box on every row, if the rows with different answers can be
    told apart by some feature (as binned) and nothing is missing: fidelity 1 *)
Theorem C85_faithful : forall w X fr model cl out cl' x bt p,
  c_alg cl = IREP_ -> world_ok w -> table_of X None fr -> good_frame fr -> frows fr <> [] -> distinct_labels fr ->
  model X = Ok out -> length (box_vals out) = length (frows fr) ->
  let h := hyper_of cl [] in
  (h_prune h == 0)%Q -> no_ruleset_limits h -> no_rule_limits h -> (h_nbins h = None \/ exists n, h_nbins h = Some n /\ (0 <= n)%Z) -> (0 < h_alpha h)%Q ->
  interpret_model w X model cl = (cl', Ok x) -> c_bt cl' = Some bt -> c_pc cl' = Some p ->
  text_tells bt answers_column fr -> told_apart bt answers_column p fr (box_vals out) -> nothing_missing bt answers_column fr ->
  clf_predict cl' X None = (cl', Ok (map (fun v => py_eq v p) (box_vals out))) /\
  (length (frows fr) <> 1 -> exists q, score_fidelity score_accuracy X cl' (Some model) None = (cl', Ok (Some q)) /\ (q == 1)%Q).
Proof.
  intros w X fr model cl out cl' x bt p EA WO T G NE D M L h PZ NL NR NB A H BT PC TT TA NM.
  destruct (interpret_ok _ _ _ _ _ _ _ _ T M L H) as [F R]. assert (TI := answers_input X fr (box_vals out) T G NE L).
  assert (PI := predict_plain X None answers_column fr eq_refl T). split.
  - eapply C77_labels_reproduced; eauto. apply same_data_refl.
  - intros N1. unfold score_fidelity. rewrite (box_fidelity X (Some model) None (box_vals out)).
    + cbn [score_preds]. eapply C77_training_score; eauto. apply same_data_refl.
    + right. split; auto. exists model, out. do 3 (split; auto). intros _. congruence.
Qed.
Print Assumptions C85_faithful.

(** ** The hypotheses are met: a black box that answers 1 for the same people as before; it sees the rows, the interpreter does not see it *)
Definition oracle : blackbox := fun _ => Ok (BoxArray (y_vals people_y)).
Definition oracle_clf : clf := fst (interpret_model w1 (DFrame people_fr) oracle irep_full).
Lemma pair_ok {A B} (a a' : A) (b c : B) : (a, Ok b) = (a', Ok c) -> b = c. Proof. intros H. injection H as _ H. exact H. Qed.
Lemma oracle_apart : told_apart people_bt answers_column (PInt 1) people_fr (y_vals people_y) /\ nothing_missing people_bt answers_column people_fr /\ text_tells people_bt answers_column people_fr.
Proof.
  destruct people_told as (TA & NM & TT).
  assert (OTHER : forall rw g a, sees people_bt (fcols people_fr) rw g a -> py_eq answers_column g = false /\ py_eq (s_ "t") g = false).
  { intros rw g a S. apply sees_column in S. destruct S as (c & I & E). destruct I as [<-|[<-|[]]]; destruct g; try discriminate E; apply str_eqb_eq in E; subst; split; reflexivity. }
  split; [|split].
  - intros i j ri rj vi vj Ri Rj Vi Vj Pi Pj. destruct (TA i j ri rj vi vj Ri Rj Vi Vj Pi Pj) as (g & a & b & _ & S1 & S2 & E). exists g, a, b. split; auto. eapply OTHER; eauto.
  - destruct NM as [N1 N2]. split; auto. intros rx g v I _ S. apply (N2 rx g v I); auto. eapply OTHER; eauto.
  - assert (K : forall c, occurs people_bt answers_column people_fr c -> occurs people_bt (s_ "t") people_fr c).
    { intros c (I & _ & rx & Ir & S). split; auto. split; [eapply OTHER; eauto|]. eauto. }
    intros c d C D. apply TT; auto.
Qed.
Example C85_nonvacuous : exists x, interpret_model w1 (DFrame people_fr) oracle irep_full = (oracle_clf, Ok x) /\ map rule_str (rs_rules x) = [$"[v=>-1.0]"] /\
  clf_predict oracle_clf (DFrame people_fr) None = (oracle_clf, Ok [false; true; true; true; true; false]) /\
  (forall r, In r (rs_rules x) -> exists i, nth_error (y_vals people_y) i = Some (PInt 1) /\ nth_error [false; true; true; true; true; false] i = Some true) /\
  exists q, score_fidelity score_accuracy (DFrame people_fr) oracle_clf (Some oracle) None = (oracle_clf, Ok (Some q)) /\ (q == 1)%Q.
Proof.
  destruct people_train_view as [GF _]. assert (D : distinct_labels people_fr) by (repeat constructor; cbn; intuition discriminate).
  destruct (interpret_model w1 (DFrame people_fr) oracle irep_full) as [c [x|e]] eqn:E; [|vm_compute in E; discriminate].
  assert (c = oracle_clf) by (unfold oracle_clf; rewrite E; reflexivity). subst c.
  exists x. split; auto. split; [vm_compute in E; injection E as <-; reflexivity|].
  destruct oracle_apart as (TA & NM & TT).
  destruct (C85_faithful w1 (DFrame people_fr) people_fr oracle irep_full (BoxArray (y_vals people_y)) oracle_clf x people_bt (PInt 1)
    eq_refl w1_ok (table_frame people_fr) GF ltac:(discriminate) D eq_refl eq_refl) as [E1 E2]; try assumption;
    [reflexivity|repeat split; reflexivity|repeat split; reflexivity|right; eexists; split; [reflexivity|discriminate]|reflexivity|vm_compute; reflexivity|vm_compute; reflexivity|].
  split; [exact E1|]. split; [|apply E2; discriminate].
  destruct (C85_explains w1 (DFrame people_fr) people_fr oracle irep_full (BoxArray (y_vals people_y)) oracle_clf x
    w1_ok (table_frame people_fr) GF ltac:(discriminate) D eq_refl eq_refl) as (_ & _ & bt & p & preds & reasons & _ & EP & B1 & _ & EQ & _ & _ & _ & _ & RULES); auto;
    [discriminate|discriminate|right; eexists; split; [reflexivity|discriminate]|].
  rewrite E1 in EQ. apply pair_ok in EQ. subst preds.
  intros r I. destruct (RULES r I) as (i & v & rr & N1 & Q & _ & _ & N2). exists i. split; auto. cbn [box_vals] in N1.
  do 6 (destruct i as [|i]; [vm_compute in N2; first [discriminate N2 | reflexivity]|]). destruct i; discriminate.
Qed.
Example C85_returns_nonvacuous : binary (y_vals people_y) /\ exists cl' x, interpret_model w1 (DFrame people_fr) oracle ripper_bins2 = (cl', Ok x).
Proof.
  destruct people_train_view as [GF _]. assert (B : binary (y_vals people_y)).
  { split; [|split]. - intros v I. repeat (destruct I as [<-|I]; [first [left; reflexivity|right; reflexivity]|]). destruct I. - exists (PInt 0). split; [left; reflexivity|reflexivity]. - exists (PInt 1). split; [right; left; reflexivity|reflexivity]. }
  split; auto. eapply (C85_returns w1 (DFrame people_fr) people_fr oracle ripper_bins2 (BoxArray (y_vals people_y))); auto;
    [exact w1_ok|constructor|discriminate|repeat constructor; cbn; intuition discriminate|discriminate|intros _; discriminate|discriminate|reflexivity|right; eexists; split; [reflexivity|discriminate]].
Qed.
