(** * Prop_Store.v : the caller's tables and labels are never modified (C93) *)
From Verif Require Import StoreFacts Prop_Fit Demo.
Open Scope nat_scope.

Lemma line_same s0 s l v : line_ok s0 s l v -> same_line s0 s l v.
Proof. intros (A & B & C & D & E & F). do 5 (split; auto). destruct (snd l), (l_examples v); auto. destruct F. auto. Qed.
Lemma lines_same s0 s l v : Forall2 (line_ok s0 s) l v -> Forall2 (same_line s0 s) l v.
Proof. induction 1; constructor; auto. apply line_same; auto. Qed.
Lemma carry_one w cl k v s : refers s k v ->
  over s (fst (carry_out w cl k s)) /\ fst (snd (carry_out w cl k s)) = fst (on_values w cl v) /\
  same_outcome s (fst (carry_out w cl k s)) (snd (snd (carry_out w cl k s))) (snd (on_values w cl v)).
Proof.
  destruct k, v; cbn [refers]; try easy.
  - intros (T & L & [= <- <- <- <- <- <-]). cbn [carry_out on_values]. pose proof (fit_same_store w cl X y cf pc names init cnopt kw X0 y0 s T L) as [O H].
    destruct (h_fit _ _ _ _ _ _ _ _ _ _ s) as [s' r]. cbn [fst snd] in *. rewrite H. split; auto. unfold then_. cbn [fst snd]. split; auto. destruct (snd (fit _ _ _ _ _ _ _ _ _ _)); exact I || reflexivity.
  - intros (T & <-). cbn [carry_out on_values]. pose proof (predict_same cl X names X0 s T) as [O H].
    destruct (h_predict _ _ _ s) as [s' r]. cbn [fst snd] in *. rewrite H. split; auto. unfold then_. cbn [fst snd]. split; auto. destruct (snd (clf_predict_reasons _ _ _)); cbn [bind same_outcome]; auto.
  - intros (T & <-). cbn [carry_out on_values]. pose proof (proba_same cl X names X0 s T) as [O H].
    destruct (h_predict_proba _ _ _ s) as [s' r]. cbn [fst snd] in *. rewrite H. split; auto. unfold then_. cbn [fst snd]. split; auto. destruct (snd (clf_predict_proba _ _ _)); cbn [bind same_outcome]; auto.
  - intros (T & L & <-). cbn [carry_out on_values]. pose proof (score_same metric cl X y X0 y0 s T L) as [O H].
    destruct (h_score _ _ _ _ s) as [s' r]. cbn [fst snd] in *. rewrite H. split; auto. unfold then_. cbn [fst snd]. split; auto. destruct (snd (clf_score _ _ _ _)); cbn [bind same_outcome]; auto.
  - intros (T & L & [= <- <- <- <-]). cbn [carry_out on_values]. pose proof (recalibrate_same cl X y names min_samples require_min discretize X0 y0 s T L) as [O H].
    destruct (h_recalibrate _ _ _ _ _ _ _ s) as [s' r]. cbn [fst snd] in *. rewrite H. split; auto. unfold then_. cbn [fst snd]. split; auto. destruct (snd (clf_recalibrate _ _ _ _ _ _ _)); cbn [bind same_outcome]; auto.
  - intros (T & L & [= <- <-]). cbn [carry_out on_values]. pose proof (stats_same w cl X y n_examples names X0 y0 s T L) as (O & H & F).
    destruct (h_rule_stats _ _ _ _ _ _ s) as [s' r]. cbn [fst snd] in *. split; auto. unfold then_. cbn [fst snd]. split; auto.
    destruct (snd r), (snd (clf_rule_stats _ _ _ _ _ _)); cbn [bind same_outcome] in *; auto. apply lines_same; auto.
Qed.

(** Whatever objects exist when a call is made - DataFrames, arrays, Series, lists - the call, whether it returns or raises, leaves every one of them as
    it was; its outcome and the classifier it leaves are determined by the values of its arguments alone, as in all other properties; and the tables of
    examples it returns are new objects. *)
Theorem C93_call : forall w cl k v s, refers s k v ->
  let s' := fst (carry_out w cl k s) in
  untouched s s' /\ fst (snd (carry_out w cl k s)) = fst (on_values w cl v) /\ same_outcome s s' (snd (snd (carry_out w cl k s))) (snd (on_values w cl v)).
Proof. intros w cl k v s R s'. destruct (carry_one w cl k v s R) as (O & H). split; auto. apply over_untouched; auto. Qed.
Print Assumptions C93_call.
Lemma refers_over s s' k v : over s s' -> refers s k v -> refers s' k v.
Proof.
  intros O. assert (T := table_over s s'). assert (L := labels_over s s'). destruct k, v; cbn [refers]; try easy.
  - intros (A & B & C). eauto 6.
  - intros (A & B). eauto.
  - intros (A & B). eauto.
  - intros (A & B & C). split; [eauto|]. split; auto.
  - intros (A & B & C). eauto 6.
  - intros (A & B & C). eauto 6.
Qed.
(** Through any history of calls on the same tables and labels these stay what they were, and every call answers as on the original values: no call is
    influenced by what an earlier one did to the data. *)
Theorem C93_history : forall w s ks vs, Forall2 (refers s) ks vs -> forall cl,
  Forall2 (fun (x : store * clf * res (outcome (stat_line * option nat))) (y : clf * res (outcome stat_line)) =>
             let '(s', cl', o) := x in untouched s s' /\ cl' = fst y /\ same_outcome s s' o (snd y))
          (carry_all w cl ks s) (values_all w cl vs).
Proof.
  intros w s ks vs R cl. assert (G : forall s1, over s s1 -> forall cl,
    Forall2 (fun (x : store * clf * res (outcome (stat_line * option nat))) (y : clf * res (outcome stat_line)) =>
             let '(s', cl', o) := x in untouched s s' /\ cl' = fst y /\ same_outcome s s' o (snd y)) (carry_all w cl ks s1) (values_all w cl vs)).
  2:{ apply G. apply over_refl. }
  clear cl. induction R as [|k v ks vs Rk R IH]; intros s1 O cl; cbn [carry_all values_all]; [constructor|].
  pose proof (carry_one w cl k v s1 (refers_over _ _ _ _ O Rk)) as (O1 & H1 & H2).
  destruct (carry_out w cl k s1) as [s2 [cl2 o]]. destruct (on_values w cl v) as [cl2' o']. cbn [fst snd] in *. subst cl2'.
  assert (O2 := over_trans _ _ _ O O1). constructor; [|apply IH; auto]. split; [apply over_untouched; auto|]. split; auto.
  unfold same_outcome in *. destruct o as [[]|], o' as [[]|]; auto. revert H2. apply Forall2_impl. intros a b _ _ (A & B & C & D & E & F). do 5 (split; auto).
  destruct (snd a), (l_examples b); auto. destruct F. split; auto. apply over_len in O. lia.
Qed.
Print Assumptions C93_history.

(** a session on one DataFrame that has the class column, and a Series *)
Definition t_col : list pyval := y_vals people_y.
Definition whole : frame := put_col people_fr (s_ "t") t_col.
Definition objects : store := [FrameO whole; SeriesO (Some (s_ "t")) [10; 11; 12; 13; 14; 15] t_col; FrameO people_fr].
Definition session93 : list (dcall nat nat) :=
  [DFit 0 None (Some (s_ "t")) None None MNone true []; DPredict 0 None; DStats 0 (Some 1) (Some (-1)%Z) None; DFit 2 (Some 1) None None None MNone true [];
   DScore (fun a b => Ok (Some (1#1))) 2 1; DRecal 0 None None (Some 1%Z) false true; DProba 2 None].
Definition session93_values : list (dcall data ydata) :=
  [DFit (DFrame whole) None (Some (s_ "t")) None None MNone true []; DPredict (DFrame whole) None; DStats (DFrame whole) (Some people_y) (Some (-1)%Z) None;
   DFit (DFrame people_fr) (Some people_y) None None None MNone true []; DScore (fun a b => Ok (Some (1#1))) (DFrame people_fr) people_y;
   DRecal (DFrame whole) None None (Some 1%Z) false true; DProba (DFrame people_fr) None].
Example C93_nonvacuous : Forall2 (refers objects) session93 session93_values /\
  map (fun x => match snd x with Ok _ => true | Err _ => false end) (carry_all w1 irep_bins2 session93 objects) = repeat true 7 /\
  Forall (fun x => firstn 3 (fst (fst x)) = objects /\ 3 < length (fst (fst x))) (carry_all w1 irep_bins2 session93 objects).
Proof.
  split; [|split].
  - unfold session93, session93_values. repeat (constructor; [repeat split|]). constructor.
  - vm_compute. reflexivity.
  - match goal with |- Forall _ ?l => let x := eval vm_compute in l in change l with x end.
    repeat (constructor; [vm_compute; split; [reflexivity|lia]|]). constructor.
Qed.
