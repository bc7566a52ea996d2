(** * Prop_Prep.v : positive class and labels (C52, C53) *)
From Verif Require Import ClassFacts Demo Prop_Irep Prop_Helpers.

(** C52. The positive class used by fit. [vs]: the labels of the training rows, however they were given. *)
(** a given pos_class is used as it is *)
Theorem C52_given : forall w cl X y cf names p init cnopt kw cl',
  fit w cl X y cf (Some p) names init cnopt kw = (cl', Ok tt) -> c_pc cl' = Some p.
Proof.
  intros w cl X y cf names p init cnopt kw cl' H. apply fit_inv in H. destruct H as (df & f & p' & bt & E & _ & P & _).
  rewrite P. f_equal. unfold fit_pre, preprocess_training in E. binv E. destruct (class_feat_name cf y); [|repeat (binv E); discriminate].
  binv E. cbn [get_pos_class bind] in E. binv E. destruct v1. injection E as _ _ <- _. reflexivity.
Qed.
Print Assumptions C52_given.
(** labels {0,1} or {False,True}: the positive class is the 1 / True *)
Theorem C52_binary : forall w cl X y cf names f vs ix init cnopt kw cl', training_input X y cf names f vs ix ->
  fit w cl X y cf None names init cnopt kw = (cl', Ok tt) -> binary vs ->
  exists p, c_pc cl' = Some p /\ is_one p /\
    ((forall v, In v vs -> boolean v) -> p = PBool true) /\ ((forall v, In v vs -> ~ boolean v) -> p = PInt 1).
Proof.
  intros w cl X y cf names f vs ix init cnopt kw cl' T H B. apply fit_inv in H. destruct H as (df & f' & p & bt & E & _ & P & _).
  destruct (input_pre _ _ _ _ _ _ _ T) as (df0 & _ & _ & _ & _ & _ & _ & PR). rewrite PR in E. destruct (pos_binary vs B) as (z & Iz & Z & G).
  rewrite G in E. cbn [bind] in E. binv E. destruct v. injection E as _ _ <- _. exists (if is_false z then PBool true else PInt 1). split; auto.
  split; [destruct (is_false z); reflexivity|]. split; intros K.
  - destruct (K z Iz) as ([] & ->); [discriminate Z|reflexivity].
  - destruct z as [| |[]| |]; try reflexivity. exfalso. eapply K; [exact Iz|eexists; reflexivity].
Qed.
Print Assumptions C52_binary.
(** a single label: 1 / True if the label is 0 / False, else the label itself *)
Theorem C52_single : forall w cl X y cf names f vs ix init cnopt kw cl' a, training_input X y cf names f vs ix ->
  fit w cl X y cf None names init cnopt kw = (cl', Ok tt) -> one_label vs a ->
  exists p, c_pc cl' = Some p /\ (is_zero a -> is_one p) /\ (~ is_zero a -> In p vs /\ same_label a p).
Proof.
  intros w cl X y cf names f vs ix init cnopt kw cl' a T H B. apply fit_inv in H. destruct H as (df & f' & p & bt & E & _ & P & _).
  destruct (input_pre _ _ _ _ _ _ _ T) as (df0 & _ & _ & _ & _ & _ & _ & PR). rewrite PR in E. destruct (pos_one vs a B) as (b & Ib & S & G).
  rewrite G in E. cbn [bind] in E. binv E. destruct v. injection E as _ _ <- _. eexists. split; [exact P|].
  assert (ZZ : is_zero a <-> is_zero b).
  { unfold same_label, uniq_eq in S. apply Bool.orb_true_iff in S. destruct S as [S|S].
    - unfold is_zero. rewrite (py_eq_rewrite _ _ _ S). tauto.
    - apply andb_prop in S. destruct a, b; try (destruct S; discriminate). tauto. }
  split; intros K.
  - apply ZZ in K. unfold is_zero in K. rewrite K. destruct (is_false b); reflexivity.
  - assert (K' : ~ is_zero b) by tauto. unfold is_zero in K'. destruct (py_eq b (PInt 0)) eqn:EB; [congruence|].
    assert (FB : is_false b = false) by (destruct b as [| |[]| |]; auto; discriminate EB). rewrite FB. auto.
Qed.
Print Assumptions C52_single.
(** anything else: an exception *)
Theorem C52_otherwise_raises : forall w cl X y cf names f vs ix cnopt kw, training_input X y cf names f vs ix ->
  ~ binary vs -> (forall a, ~ one_label vs a) ->
  exists e, snd (fit w cl X y cf None names MNone cnopt kw) = Err e /\ (e = NameError \/ e = TypeError).
Proof.
  intros w cl X y cf names f vs ix cnopt kw T NB NO. destruct (input_pre _ _ _ _ _ _ _ T) as (df0 & G & HC & EC & _ & NE & _ & PR).
  assert (NV : vs <> []). { intros ->. assert (L := column_length df0 f (proj1 G) HC). rewrite EC in L. destruct (frows df0); [congruence|discriminate]. }
  specialize (PR w cl None kw). destruct (pos_other vs NV NB NO) as [E|E]; rewrite E in PR; cbn [bind] in PR;
    eexists; (split; [apply fit_pre_err; exact PR|auto]).
Qed.
Print Assumptions C52_otherwise_raises.

Definition w0 : world := mkworld env0 (fun _ _ => []) (fun n l => firstn n l).
Definition xy (l : list pyval) : data := DRows (map (fun v => [v; s_ "k"]) l).
Definition irep0 : clf := construct IREP_ [].
Definition ripper0 : clf := construct RIPPER_ [].
Example C52_nonvacuous :
  c_pc (fst (fit w0 irep0 (xy [s_ "a"; s_ "b"; s_ "a"]) (Some (YList [PBool true; PBool false; PBool true])) None None None MNone true [])) = Some (PBool true) /\
  c_pc (fst (fit w0 ripper0 (xy [s_ "a"; s_ "b"; s_ "a"]) (Some (YList [PInt 1; PInt 0; PInt 1])) None None None MNone true [])) = Some (PInt 1) /\
  snd (fit w0 ripper0 (xy [s_ "a"; s_ "b"; s_ "a"]) (Some (YList [PInt 1; PInt 0; PInt 1])) None None None MNone true []) = Ok tt /\
  snd (fit w0 irep0 (xy [s_ "a"; s_ "b"; s_ "a"]) (Some (YList [s_ "yes"; s_ "no"; s_ "yes"])) None None None MNone true []) = Err NameError /\
  snd (fit w0 irep0 (xy [s_ "a"; s_ "b"; s_ "a"]) (Some (YList [s_ "yes"; s_ "no"; s_ "yes"])) None (Some (s_ "yes")) None MNone true []) = Ok tt.
Proof. repeat split; vm_compute; reflexivity. Qed.
(** well-formed inputs: rows and a list of labels; a named Series with its own index; a frame holding the class column *)
Definition abc : list (list pyval) := [[s_ "a"; s_ "k"]; [s_ "b"; s_ "k"]; [s_ "a"; s_ "k"]].
Definition abc_fr (cols : list pyval) : frame := mkframe cols [mkrow 0 [s_ "a"; s_ "k"]; mkrow 1 [s_ "b"; s_ "k"]; mkrow 2 [s_ "a"; s_ "k"]].
Lemma abc_good a b : py_eq a b = false -> good_frame (abc_fr [a; b]).
Proof.
  intros N. split.
  - intros r [<-|[<-|[<-|[]]]]; reflexivity.
  - assert (N' : py_eq b a = false) by (rewrite py_eq_sym; auto). intros [|[|i]] [|[|j]] x y Hx Hy E; try reflexivity; cbn in Hx, Hy;
      try (destruct i; discriminate); try (destruct j; discriminate); congruence.
Qed.
Example input_nonvacuous :
  training_input (DRows abc) (Some (YList [PInt 1; PInt 0; PInt 1])) None None (s_ "Class") [PInt 1; PInt 0; PInt 1] [0; 1; 2] /\
  training_input (DRows abc) (Some (YSeries (Some (s_ "t")) [7; 7; 3] [PInt 1; PInt 0; PInt 1])) None (Some [s_ "u"; s_ "v"]) (s_ "t") [PInt 1; PInt 0; PInt 1] [7; 7; 3] /\
  training_input (DFrame (abc_fr [s_ "u"; s_ "v"])) None (Some (s_ "u")) None (s_ "u") [s_ "a"; s_ "b"; s_ "a"] [0; 1; 2] /\
  binary [PInt 1; PInt 0; PInt 1] /\ ~ binary [s_ "a"; s_ "b"; s_ "a"].
Proof.
  split; [|split; [|split; [|split]]].
  - apply (input_labels _ _ _ _ _ _ _ (YList [PInt 1; PInt 0; PInt 1]) (abc_fr [PInt 0; PInt 1])); auto.
    + eapply names_default; reflexivity.
    + apply (table_rows abc 2); auto; [discriminate|]. intros r [<-|[<-|[<-|[]]]]; reflexivity.
    + apply abc_good; reflexivity.
    + discriminate.
    + exact I.
  - apply (input_labels _ _ _ _ _ _ _ (YSeries (Some (s_ "t")) [7; 7; 3] [PInt 1; PInt 0; PInt 1]) (abc_fr [s_ "u"; s_ "v"])); auto.
    + eapply names_series; reflexivity.
    + apply (table_rows_named abc 2 (abc_fr [s_ "u"; s_ "v"])); auto; [discriminate|]. intros r [<-|[<-|[<-|[]]]]; reflexivity.
    + apply abc_good; reflexivity.
    + discriminate.
    + reflexivity.
  - apply (input_column _ _ _ _ _ _ _ (abc_fr [s_ "u"; s_ "v"])); auto.
    + apply table_frame.
    + apply abc_good; reflexivity.
    + discriminate.
    + exists (s_ "u"). split; [left; auto|reflexivity].
    + split; auto. intros [|[|[|i]]] rw v H1 H2; cbn in H1, H2; try (destruct i; discriminate); injection H1 as <-; injection H2 as <-;
        exists 0, (s_ "u"); repeat split.
  - split; [|split]; [|exists (PInt 0)|exists (PInt 1)]; try (split; [cbn; auto|reflexivity]). intros v [<-|[<-|[<-|[]]]]; [right|left|right]; reflexivity.
  - intros [H _]. destruct (H (s_ "a")) as [E|E]; [left; auto|discriminate..].
Qed.

(** C53. Fitting on X and y (any list, or a Series of the same length, whatever the indexes) is fitting on the table that has the i-th
    label in the i-th row, in the column named as documented. Missing: a Series of another length, refuted below. *)
Theorem C53_labels_attached_partial : forall w cl X y cf pc names init cnopt kw fr f, table_of X names fr -> frows fr <> [] -> good_frame fr ->
  series_ok y -> length (y_vals y) = length (frows fr) -> py_eq f f = true -> names_class cf y f ->
  exists df, good_frame df /\ labelled fr (y_vals y) f (label_index y fr) df /\
    fit w cl X (Some y) cf pc names init cnopt kw = fit w cl (DFrame df) None (Some f) pc None init cnopt kw.
Proof.
  intros w cl X y cf pc names init cnopt kw fr f T NE G S L FF NC.
  destruct (pre_labelled w cl X y cf pc names kw fr f T NE G S L FF NC) as (df & GD & LD & E & _).
  exists df. split; auto. split; auto. apply fit_cong; auto.
Qed.
Print Assumptions C53_labels_attached_partial.
(** a list of another length is rejected *)
Theorem C53_list_length_checked : forall w cl X vals cf pc names cnopt kw fr f, table_of X names fr -> frows fr <> [] ->
  length vals <> length (frows fr) -> names_class cf (YList vals) f ->
  snd (fit w cl X (Some (YList vals)) cf pc names MNone cnopt kw) = Err ValueError.
Proof.
  intros w cl X vals cf pc names cnopt kw fr f T NE L NC. apply fit_pre_err. unfold fit_pre, preprocess_training.
  assert (LX : data_len X <> 0). { rewrite (table_len _ _ _ T). destruct (frows fr); [congruence|discriminate]. }
  destruct (names_class_facts cf (YList vals) f X names NC LX) as [N1 N2]. rewrite N2. cbn [bind]. rewrite N1.
  unfold training_df. rewrite (table_rename _ _ _ T). cbn [bind attach_labels]. apply Nat.eqb_neq in L. rewrite L. reflexivity.
Qed.
Print Assumptions C53_list_length_checked.
(** Refuted for a Series: two labels for three rows are accepted, the third row silently gets a missing label (a negative example). *)
Theorem C53_series_length_refuted :
  training_df (DFrame (abc_fr [s_ "u"; s_ "v"])) (Some (YSeries (Some (s_ "t")) [0; 1] [PInt 1; PInt 0])) (s_ "t") None
    = Ok (mkframe [s_ "u"; s_ "v"; s_ "t"] [mkrow 0 [s_ "a"; s_ "k"; PInt 1]; mkrow 1 [s_ "b"; s_ "k"; PInt 0]; mkrow 2 [s_ "a"; s_ "k"; PNaN]]) /\
  snd (fit w0 irep0 (DFrame (abc_fr [s_ "u"; s_ "v"])) (Some (YSeries (Some (s_ "t")) [0; 1] [PInt 1; PInt 0])) None (Some (PInt 1)) None MNone true []) = Ok tt /\
  snd (fit w0 ripper0 (DFrame (abc_fr [s_ "u"; s_ "v"])) (Some (YSeries (Some (s_ "t")) [0; 1] [PInt 1; PInt 0])) None (Some (PInt 1)) None MNone true []) = Ok tt.
Proof. repeat split; vm_compute; reflexivity. Qed.
Print Assumptions C53_series_length_refuted.
Example C53_nonvacuous :
  training_df (DRows abc) (Some (YSeries (Some (s_ "t")) [7; 7; 3] [PInt 1; PInt 0; PInt 1])) (s_ "t") (Some [s_ "u"; s_ "v"])
    = Ok (mkframe [s_ "u"; s_ "v"; s_ "t"] [mkrow 7 [s_ "a"; s_ "k"; PInt 1]; mkrow 7 [s_ "b"; s_ "k"; PInt 0]; mkrow 3 [s_ "a"; s_ "k"; PInt 1]]).
Proof. reflexivity. Qed.

(** C61. Refuted: labels given as a Series without a name (and no class_feat) always raise, whatever the data; *)
Theorem C61_unnamed_series_refuted : forall w cl X ix vals pc names cnopt kw,
  exists e, snd (fit w cl X (Some (YSeries None ix vals)) None pc names MNone cnopt kw) = Err e.
Proof.
  intros w cl X ix vals pc names cnopt kw. assert (K : exists e, fit_pre w cl X (Some (YSeries None ix vals)) None pc names kw = Err e).
  { unfold fit_pre, preprocess_training. destruct (check_input _ _ _ _ _); cbn [bind class_feat_name]; [|eauto].
    destruct (training_df _ _ _ _); cbn [bind]; [|eauto]. destruct (get_pos_class _ _); cbn [bind]; [|eauto]. destruct (fit_transform _ _ _ _); cbn [bind]; eauto. }
  destruct K as (e & K). exists e. apply fit_pre_err; auto.
Qed.
Print Assumptions C61_unnamed_series_refuted.
Example C61_unnamed_nonvacuous :
  snd (fit w0 irep0 (DRows abc) (Some (YSeries None [0; 1; 2] [PInt 1; PInt 0; PInt 1])) None None None MNone true []) = Err ValueError /\
  snd (fit w0 irep0 (DRows abc) (Some (YList [PInt 1; PInt 0; PInt 1])) None None None MNone true []) = Ok tt.
Proof. split; vm_compute; reflexivity. Qed.
(** with class_feat given, an unnamed Series is a NameError *)
Theorem C61_unnamed_series_class_feat_refuted : forall w cl X ix vals f pc names cnopt kw, data_len X <> 0 ->
  snd (fit w cl X (Some (YSeries None ix vals)) (Some f) pc names MNone cnopt kw) = Err NameError.
Proof.
  intros w cl X ix vals f pc names cnopt kw L. apply fit_pre_err. unfold fit_pre, preprocess_training, check_input. apply Nat.eqb_neq in L. rewrite L. reflexivity.
Qed.
Print Assumptions C61_unnamed_series_class_feat_refuted.
(** All other kinds of labels are equivalent: a list and a named Series with the same values lead to the same training table up to the
    index and the class column's name (C53); with the table's own index and the name "Class" they give the very same result. *)
Theorem C61_list_as_series_partial : forall w cl X vals pc names init cnopt kw fr, table_of X names fr -> frows fr <> [] -> good_frame fr ->
  length vals = length (frows fr) ->
  fit w cl X (Some (YList vals)) None pc names init cnopt kw
  = fit w cl X (Some (YSeries (Some (PStr (lit "Class"))) (labels (frows fr)) vals)) None pc names init cnopt kw.
Proof.
  intros w cl X vals pc names init cnopt kw fr T NE G L. apply fit_cong. unfold fit_pre, preprocess_training.
  unfold check_input. destruct (data_len X =? 0); [reflexivity|]. cbn [negb bind class_feat_name]. unfold training_df. rewrite (table_rename _ _ _ T). cbn [bind attach_labels].
  unfold labels at 1. rewrite map_length, Nat.eqb_refl, L, Nat.eqb_refl.
  assert (set_index fr (labels (frows fr)) = fr) as ->; [|reflexivity].
  unfold set_index, labels, with_rows. destruct fr as [c l]. cbn. f_equal. clear. induction l as [|[a b] l IH]; cbn; congruence.
Qed.
Print Assumptions C61_list_as_series_partial.
