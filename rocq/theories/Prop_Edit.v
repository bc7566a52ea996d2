(** * Prop_Edit.v : what an edit does to the predictions (C70), and that the order of the rules does not matter (C71) *)
From Verif Require Import SessionFacts Demo Prop_Helpers Prop_Prep Prop_Fit Prop_Classifier Prop_FitModel Prop_Text Prop_Session.
Open Scope nat_scope.

(** the calls that add the rule [o] to the model, take a rule out, exchange one for [o] *)
Inductive adds (o : obj) : call -> Prop :=
| adds_end : adds o (AddRule o) | adds_at : forall i, adds o (InsertAt i o) | adds_before : forall b, adds o (InsertRule b o).
Inductive removes : call -> Prop :=
| removes_at : forall i, removes (RemoveAt i) | removes_rule : forall o, removes (RemoveRule o).
Inductive replaces (o : obj) : call -> Prop :=
| replaces_at : forall i, replaces o (ReplaceAt i o) | replaces_rule : forall b, replaces o (ReplaceRule b o).
(** the rule the call takes out is [y]: the one at the index, or the first that reads like the argument *)
Definition taken_out (k : call) (l : list rule) (y : rule) : Prop :=
  match k with
  | RemoveAt i | ReplaceAt i _ => (0 <= i)%Z /\ nth_error l (Z.to_nat i) = Some y
  | RemoveRule o | ReplaceRule o _ => exists q a b, means o q /\ l = a ++ y :: b /\ same_text (conds y) q /\ forall z, In z a -> ~ same_text (conds z) q
  | _ => False
  end.

(** predictions before and after, row by row *)
Definition before_after (bt : bin_transformer) (fr : frame) (preds preds' : list bool) (P : row -> bool -> bool -> Prop) : Prop :=
  length preds = length (frows fr) /\ length preds' = length (frows fr) /\
  forall i rw p p', nth_error (frows fr) i = Some rw -> nth_error preds i = Some p -> nth_error preds' i = Some p' -> P rw p p'.

Lemma some_holds_conds bt cols rw rs : some_holds bt cols rw rs <-> exists cs, In cs (map conds rs) /\ holds bt cols rw (Rule_ cs).
Proof.
  split.
  - intros (r & I & H). exists (conds r). split; [apply in_map; auto|]. exact H.
  - intros (cs & I & H). apply in_map_iff in I. destruct I as (r & <- & I). exists r. split; auto.
Qed.
Lemma Forall2_nth {A B} (R : A -> B -> Prop) l m : Forall2 R l m -> forall i a b, nth_error l i = Some a -> nth_error m i = Some b -> R a b.
Proof. induction 1; intros [|i] a b E1 E2; cbn in *; try discriminate; [injection E1 as <-; injection E2 as <-; auto|eauto]. Qed.

(** one successful edit: the attributes stay, the rules are those of the specification machine, and both models predict *)
Lemma edit_predict w cl x cf pc sel bt k cl' X names fr new :
  ready cl x cf pc sel -> c_bt cl = Some bt -> ~ initialising k -> perform w cl k = (cl', None) -> suits cl x cf sel bt X names fr ->
  (forall l', spec_step k (map conds (rs_rules x)) None l' -> forall cs, In cs l' -> In cs (map conds (rs_rules x)) \/ cs = new) ->
  (forall c, In c new -> usable fr cf (cfeat c)) ->
  exists l' preds preds', spec_step k (map conds (rs_rules x)) None l' /\ rules_of cl' = Some l' /\
    clf_predict cl X names = (cl, Ok preds) /\ clf_predict cl' X names = (cl', Ok preds') /\
    before_after bt fr preds preds' (fun rw p p' =>
      (p = true <-> exists cs, In cs (map conds (rs_rules x)) /\ holds bt (fcols fr) rw (Rule_ cs)) /\
      (p' = true <-> exists cs, In cs l' /\ holds bt (fcols fr) rw (Rule_ cs))).
Proof.
  intros R B NI P S SP US.
  destruct (C56_predict_current_rules w [k] cl x cf pc sel bt cl' [None] R B) as (x' & l' & SR & EL & RX & PR).
  { constructor; auto. } { cbn [perform_all]. rewrite P. reflexivity. }
  inversion SR as [|? ? ? ? l1 ? ? ST RN]; subst. inversion RN; subst. 
  destruct (C01_classifier_predict _ _ _ _ _ _ _ _ _ R B S) as (preds & E1 & F1).
  destruct (PR X names fr) as (preds' & E2 & F2).
  { destruct S as [S1 S2 S3 S4 S5 S6 S7 S8]. constructor; auto. intros f (r & c & I1 & I2 & ->).
    destruct (SP _ ST (conds r)) as [I|I]; [apply in_map; auto| |].
    - apply in_map_iff in I. destruct I as (r0 & E0 & I). apply S8. exists r0, c. rewrite E0. auto.
    - apply US. rewrite <- I. exact I2. }
  exists (map conds (rs_rules x')), preds, preds'. split; [exact ST|]. split; [unfold rules_of; rewrite RX; reflexivity|]. split; [auto|]. split; [auto|].
  assert (L1 := Forall2_length _ _ _ F1). assert (L2 := Forall2_length _ _ _ F2). split; [congruence|]. split; [congruence|]. intros i rw p p' N N1 N2.
  rewrite <- !some_holds_conds. split; [exact (Forall2_nth _ _ _ F1 i _ _ N N1)|exact (Forall2_nth _ _ _ F2 i _ _ N N2)].
Qed.
Lemma means_fun o p q : means o p -> means o q -> p = q.
Proof. intros (r & E & <-) (s & E2 & <-). congruence. Qed.
Lemma before_after_imp bt fr a b (P Q : row -> bool -> bool -> Prop) : (forall rw p p', P rw p p' -> Q rw p p') -> before_after bt fr a b P -> before_after bt fr a b Q.
Proof. intros H (L1 & L2 & K). split; auto. split; auto. intros. apply H. eauto. Qed.
Ltac split_in := repeat match goal with H : In _ (_ ++ _) |- _ => apply in_app_iff in H; destruct H as [H|H] | H : In _ (_ :: _) |- _ => destruct H as [H|H] | H : In _ [] |- _ => contradiction end.

(** C70, adding a rule (add_rule, insert_rule, insert_rule_at): afterwards a row is predicted positive exactly if it was before or the new rule
    holds for it. So no positive prediction is lost, wherever the rule is put. *)
Theorem C70_adding : forall w cl x cf pc sel bt k o r cl' X names fr,
  ready cl x cf pc sel -> c_bt cl = Some bt -> adds o k -> rule_arg o = Ok r -> perform w cl k = (cl', None) ->
  suits cl x cf sel bt X names fr -> (forall c, In c (conds r) -> usable fr cf (cfeat c)) ->
  exists preds preds', clf_predict cl X names = (cl, Ok preds) /\ clf_predict cl' X names = (cl', Ok preds') /\
    before_after bt fr preds preds' (fun rw p p' => p' = true <-> p = true \/ holds bt (fcols fr) rw r).
Proof.
  intros w cl x cf pc sel bt k o r cl' X names fr R B A RA P S US.
  assert (M : means o (conds r)) by (exists r; auto).
  destruct (edit_predict w cl x cf pc sel bt k cl' X names fr (conds r)) as (l' & preds & preds' & ST & _ & E1 & E2 & BA); auto.
  { inversion A; subst; intros []. }
  { intros l' ST cs I. inversion A; subst; inversion ST; subst; try (match goal with H : prediction_side _ |- _ => destruct H end);
      match goal with H : means o ?q |- _ => pose proof (means_fun _ _ _ M H); subst q end; unfold found_at, found_first in *;
      repeat match goal with H : _ /\ _ |- _ => destruct H end; try match goal with H : map conds _ = _ |- _ => rewrite H end; split_in; subst; auto; left; apply in_app_iff; cbn; auto. }
  exists preds, preds'. split; auto. split; auto. eapply before_after_imp; [|exact BA]. clear BA. intros rw p p' [H1 H2]. rewrite H1, H2.
  assert (K : forall cs, In cs l' <-> In cs (map conds (rs_rules x)) \/ cs = conds r).
  { intros cs. inversion A; subst; inversion ST; subst; try (match goal with H : prediction_side _ |- _ => destruct H end);
      match goal with H : means o ?q |- _ => pose proof (means_fun _ _ _ M H); subst q end; unfold found_at, found_first in *;
      repeat match goal with H : _ /\ _ |- _ => destruct H end; try match goal with H : map conds _ = _ |- _ => rewrite H end; rewrite !in_app_iff; cbn [In]; intuition congruence. }
  split.
  - intros (cs & I & H). apply K in I. destruct I as [I| ->]; [left; eauto|right; exact H].
  - intros [(cs & I & H)|H]; [exists cs; split; auto; apply K; auto|exists (conds r); split; [apply K; auto|exact H]].
Qed.
Print Assumptions C70_adding.

(** C70, removing a rule: only rows for which that rule held can change, and only from positive to negative *)
Theorem C70_removing : forall w cl x cf pc sel bt k cl' X names fr,
  ready cl x cf pc sel -> c_bt cl = Some bt -> removes k -> perform w cl k = (cl', None) -> suits cl x cf sel bt X names fr ->
  exists y preds preds', taken_out k (rs_rules x) y /\ clf_predict cl X names = (cl, Ok preds) /\ clf_predict cl' X names = (cl', Ok preds') /\
    before_after bt fr preds preds' (fun rw p p' => p = true <-> p' = true \/ holds bt (fcols fr) rw y).
Proof.
  intros w cl x cf pc sel bt k cl' X names fr R B A P S.
  destruct (edit_predict w cl x cf pc sel bt k cl' X names fr []) as (l' & preds & preds' & ST & _ & E1 & E2 & BA); auto.
  { inversion A; subst; intros []. }
  { intros l' ST cs I. left. inversion A; subst; inversion ST; subst; try (match goal with H : prediction_side _ |- _ => destruct H end); unfold found_at, found_first in *;
      repeat match goal with H : _ /\ _ |- _ => destruct H end; match goal with H : map conds _ = _ |- _ => rewrite H end; split_in; apply in_app_iff; cbn; auto. }
  { intros c []. }
  assert (K : exists y, taken_out k (rs_rules x) y /\ forall cs, In cs (map conds (rs_rules x)) <-> In cs l' \/ cs = conds y).
  { inversion A; subst; inversion ST; subst; try (match goal with H : prediction_side _ |- _ => destruct H end).
    - match goal with H : found_at _ _ _ _ _ |- _ => destruct H as [E L] end. rewrite E. apply map_eq_app in E. destruct E as (u & v & E & <- & V). apply map_eq_cons in V. destruct V as (y & v' & -> & <- & <-).
      exists y. split; [|intros cs; rewrite !in_app_iff; cbn [In]; intuition congruence]. cbn [taken_out]. rewrite map_length in L. split; [lia|]. rewrite E.
      rewrite nth_error_app2 by lia. replace (Z.to_nat i - length u) with 0 by lia. reflexivity.
    - match goal with H : found_first _ _ _ _ _ |- _ => destruct H as (E & ST2 & FS) end. rewrite E. apply map_eq_app in E. destruct E as (u & v & E & <- & V). apply map_eq_cons in V. destruct V as (y & v' & -> & <- & <-).
      exists y. split; [|intros cs; rewrite !in_app_iff; cbn [In]; intuition congruence]. cbn [taken_out]. exists q, u, v'. split; auto. split; auto. split; auto. intros z Iz. apply FS. apply in_map. exact Iz. }
  destruct K as (y & T & K). exists y, preds, preds'. split; auto. split; auto. split; auto. eapply before_after_imp; [|exact BA]. clear BA. intros rw p p' [H1 H2]. rewrite H1, H2.
  split.
  - intros (cs & I & H). apply K in I. destruct I as [I| ->]; [left; eauto|right; exact H].
  - intros [(cs & I & H)|H]; [exists cs; split; auto; apply K; auto|exists (conds y); split; [apply K; auto|exact H]].
Qed.
Print Assumptions C70_removing.

(** C70, replacing a rule: rows for which neither the old nor the new rule holds keep their prediction; rows for which the new one holds are
    positive; a row changes to positive only if the new rule holds, to negative only if the old one held. *)
Theorem C70_replacing : forall w cl x cf pc sel bt k o r cl' X names fr,
  ready cl x cf pc sel -> c_bt cl = Some bt -> replaces o k -> rule_arg o = Ok r -> perform w cl k = (cl', None) ->
  suits cl x cf sel bt X names fr -> (forall c, In c (conds r) -> usable fr cf (cfeat c)) ->
  exists y preds preds', taken_out k (rs_rules x) y /\ clf_predict cl X names = (cl, Ok preds) /\ clf_predict cl' X names = (cl', Ok preds') /\
    before_after bt fr preds preds' (fun rw p p' =>
      (holds bt (fcols fr) rw r -> p' = true) /\ (holds bt (fcols fr) rw y -> p = true) /\
      (~ holds bt (fcols fr) rw r -> ~ holds bt (fcols fr) rw y -> p' = p) /\
      (p = false -> p' = true -> holds bt (fcols fr) rw r) /\ (p = true -> p' = false -> holds bt (fcols fr) rw y)).
Proof.
  intros w cl x cf pc sel bt k o r cl' X names fr R B A RA P S US.
  assert (M : means o (conds r)) by (exists r; auto).
  destruct (edit_predict w cl x cf pc sel bt k cl' X names fr (conds r)) as (l' & preds & preds' & ST & _ & E1 & E2 & BA); auto.
  { inversion A; subst; intros []. }
  { intros l' ST cs I. inversion A; subst; inversion ST; subst; try (match goal with H : prediction_side _ |- _ => destruct H end);
      match goal with H : means o ?q |- _ => pose proof (means_fun _ _ _ M H); subst q end; unfold found_at, found_first in *;
      repeat match goal with H : _ /\ _ |- _ => destruct H end; try match goal with H : map conds _ = _ |- _ => rewrite H end; split_in; subst; auto; left; apply in_app_iff; cbn; auto. }
  assert (K : exists y others, taken_out k (rs_rules x) y /\ (forall cs, In cs (map conds (rs_rules x)) <-> In cs others \/ cs = conds y) /\
    forall cs, In cs l' <-> In cs others \/ cs = conds r).
  { inversion A; subst; inversion ST; subst; try (match goal with H : prediction_side _ |- _ => destruct H end);
      match goal with H : means o ?q |- _ => pose proof (means_fun _ _ _ M H); subst q end.
    - match goal with H : found_at _ _ _ _ _ |- _ => destruct H as [E L] end. rewrite E. apply map_eq_app in E. destruct E as (u & v & E & <- & V). apply map_eq_cons in V. destruct V as (y & v' & -> & <- & <-).
      exists y, (map conds u ++ map conds v'). split; [|split; intros cs; rewrite !in_app_iff; cbn [In]; intuition congruence]. cbn [taken_out]. rewrite map_length in L. split; [lia|]. rewrite E.
      rewrite nth_error_app2 by lia. replace (Z.to_nat i - length u) with 0 by lia. reflexivity.
    - match goal with H : found_first _ _ _ _ _ |- _ => destruct H as (E & ST2 & FS) end. rewrite E. apply map_eq_app in E. destruct E as (u & v & E & <- & V). apply map_eq_cons in V. destruct V as (y & v' & -> & <- & <-).
      exists y, (map conds u ++ map conds v'). split; [|split; intros cs; rewrite !in_app_iff; cbn [In]; intuition congruence]. cbn [taken_out]. exists q, u, v'. split; auto. split; auto. split; auto. intros z Iz. apply FS. apply in_map. exact Iz. }
  destruct K as (y & others & T & KO & KN). exists y, preds, preds'. split; auto. split; auto. split; auto. eapply before_after_imp; [|exact BA]. clear BA. intros rw p p' [H1 H2].
  assert (G1 : p = true <-> (exists cs, In cs others /\ holds bt (fcols fr) rw (Rule_ cs)) \/ holds bt (fcols fr) rw y).
  { rewrite H1. split.
    - intros (cs & I & H). apply KO in I. destruct I as [I| ->]; [left; eauto|right; exact H].
    - intros [(cs & I & H)|H]; [exists cs; split; auto; apply KO; auto|exists (conds y); split; [apply KO; auto|exact H]]. }
  assert (G2 : p' = true <-> (exists cs, In cs others /\ holds bt (fcols fr) rw (Rule_ cs)) \/ holds bt (fcols fr) rw r).
  { rewrite H2. split.
    - intros (cs & I & H). apply KN in I. destruct I as [I| ->]; [left; eauto|right; exact H].
    - intros [(cs & I & H)|H]; [exists cs; split; auto; apply KN; auto|exists (conds r); split; [apply KN; auto|exact H]]. }
  clear H1 H2. split; [tauto|]. split; [tauto|]. split; [|split].
  - intros N1 N2. destruct p, p'; auto; [apply G2; left|symmetry; apply G1; left]; tauto.
  - intros -> H. apply G2 in H. destruct H as [H|H]; auto. exfalso. assert (false = true) by tauto. discriminate.
  - intros H ->. apply G1 in H. destruct H as [H|H]; auto. exfalso. assert (false = true) by tauto. discriminate.
Qed.
Print Assumptions C70_replacing.

(** a concrete case of each, on the classifier fitted in Prop_FitModel *)
Example C70_nonvacuous : exists cl1 cl2 cl3,
  snd (clf_predict people_clf (DFrame newcomers) None) = Ok [true; false; true] /\
  perform w1 people_clf (InsertAt 0 (OStr ($"[u=b]"))) = (cl1, None) /\ snd (clf_predict cl1 (DFrame newcomers) None) = Ok [true; true; true] /\
  perform w1 cl1 (RemoveAt 1) = (cl2, None) /\ snd (clf_predict cl2 (DFrame newcomers) None) = Ok [false; true; false] /\
  perform w1 cl2 (ReplaceRule (OStr ($"[u=b]")) (OStr ($"[u=a]"))) = (cl3, None) /\ snd (clf_predict cl3 (DFrame newcomers) None) = Ok [true; false; false].
Proof. do 3 eexists. do 6 (split; [vm_compute; reflexivity|]). vm_compute. reflexivity. Qed.

(** C71. Predictions do not depend on the order of the rules nor on repetitions: two classifiers with the same bins, class and required features
    whose rules are the same as sets predict the same on all data that suits one of them. *)
Theorem C71_rule_order : forall cl1 cl2 x1 x2 cf pc sel bt X names fr,
  ready cl1 x1 cf pc sel -> ready cl2 x2 cf pc sel -> c_bt cl1 = Some bt -> c_bt cl2 = Some bt ->
  (forall cs, In cs (map conds (rs_rules x1)) <-> In cs (map conds (rs_rules x2))) ->
  suits cl1 x1 cf sel bt X names fr ->
  exists preds, clf_predict cl1 X names = (cl1, Ok preds) /\ clf_predict cl2 X names = (cl2, Ok preds).
Proof.
  intros cl1 cl2 x1 x2 cf pc sel bt X names fr R1 R2 B1 B2 K S.
  assert (S2 : suits cl2 x2 cf sel bt X names fr).
  { destruct S as [S1 S2 S3 S4 S5 S6 S7 S8]. constructor; auto. intros f (r & c & I1 & I2 & ->). 
    assert (I : In (conds r) (map conds (rs_rules x1))) by (apply K, in_map; auto). apply in_map_iff in I. destruct I as (r0 & E0 & I). apply S8. exists r0, c. rewrite E0. auto. }
  destruct (C01_classifier_predict _ _ _ _ _ _ _ _ _ R1 B1 S) as (p1 & E1 & F1). destruct (C01_classifier_predict _ _ _ _ _ _ _ _ _ R2 B2 S2) as (p2 & E2 & F2).
  exists p1. split; auto. rewrite E2. f_equal. f_equal. clear E1 E2 S S2. revert p2 F2. induction F1 as [|rw p rows p1 H F IH]; intros p2 F2; inversion F2 as [|? q ? p2' H' F' ]; subst; auto.
  f_equal; [|apply IH; auto]. rewrite some_holds_conds in H, H'. assert (Q : q = true <-> p = true).
  { rewrite H, H'. split; intros (cs & I & HH); exists cs; split; auto; apply K; auto. }
  destruct p, q; intuition congruence.
Qed.
Print Assumptions C71_rule_order.
(** inserting before or after the other rules, and twice *)
Example C71_nonvacuous : exists cl1 cl2,
  fst (perform_all w1 people_clf [AddRule (OStr ($"[u=b]"))]) = cl1 /\
  fst (perform_all w1 people_clf [InsertAt 0 (OStr ($"[u=b]")); AddRule (OStr ($"[u=b]"))]) = cl2 /\
  rules_of cl1 <> rules_of cl2 /\ snd (clf_predict cl1 (DFrame newcomers) None) = snd (clf_predict cl2 (DFrame newcomers) None).
Proof. do 2 eexists. split; [reflexivity|]. split; [reflexivity|]. split; [vm_compute; discriminate|vm_compute; reflexivity]. Qed.
