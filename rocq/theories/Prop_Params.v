(** * Prop_Params.v : hyperparameters set after training change no answer (C113) *)
From Verif Require Import SessionFacts HeapFacts ClassFacts Prop_Session Prop_Fit Prop_Classifier Prop_FitModel Prop_ClfProba Prop_Past Prop_Text Demo.
Open Scope nat_scope.

(** ** The specification *)
(** the call is not set_params *)
Definition asks (k : call) : bool := match k with SetParams _ => false | _ => true end.
(** the call sets no alpha *)
Definition no_alpha (k : call) : Prop := match k with SetParams kw => ~ In P_alpha (map fst kw) | _ => True end.
(** the two classifiers print the same model, predict and score the same and give the same statistics of their rules, on all data *)
Record same_predictions (w : world) (a b : clf) : Prop := mksp {
  sp_rules : rules_of a = rules_of b;
  sp_print : out_model a = out_model b;
  sp_predict_ : forall X n, snd (clf_predict a X n) = snd (clf_predict b X n);
  sp_score : forall (metric : list bool -> list bool -> res (option Q)) X y, snd (clf_score metric a X y) = snd (clf_score metric b X y);
  sp_stats : forall X y e n, snd (clf_rule_stats w a X y e n) = snd (clf_rule_stats w b X y e n) }.
(** ... and give the same reasons and probabilities too *)
Record same_answers (w : world) (a b : clf) : Prop := mksa {
  sa_predictions : same_predictions w a b;
  sa_reasons : forall X n, snd (clf_predict_reasons a X n) = snd (clf_predict_reasons b X n);
  sa_proba : forall X n, snd (clf_predict_proba a X n) = snd (clf_predict_proba b X n);
  sa_classes : c_classes a = c_classes b }.

(** ** Hyperparameters are attributes of their own *)
Lemma set_hyper_id cl : set_hyper cl (c_hyper cl) = cl. Proof. destruct cl; reflexivity. Qed.
Lemma ensure_hyper cl h : ensure_bt (set_hyper cl h) = (set_hyper (fst (ensure_bt cl)) h, snd (ensure_bt cl)) /\ c_hyper (fst (ensure_bt cl)) = c_hyper cl.
Proof. destruct cl as [a h0 [x|] cf pc [b|] sel fe cs]; split; reflexivity. Qed.
Lemma frame_hyper cl h bt X n : prediction_frame (set_hyper cl h) bt X n = prediction_frame cl bt X n. Proof. reflexivity. Qed.
Definition with_hyper {A} (r : clf * A) (h : hyper) : clf * A := (set_hyper (fst r) h, snd r).
Lemma predict_hyper cl h X n : clf_predict (set_hyper cl h) X n = with_hyper (clf_predict cl X n) h.
Proof.
  unfold clf_predict. cbn [c_rs set_hyper]. destruct (c_rs cl); [|reflexivity]. destruct (ensure_hyper cl h) as [-> _]. destruct (ensure_bt cl); reflexivity.
Qed.
Lemma reasons_hyper cl h X n : clf_predict_reasons (set_hyper cl h) X n = with_hyper (clf_predict_reasons cl X n) h.
Proof.
  unfold clf_predict_reasons. cbn [c_rs set_hyper]. destruct (c_rs cl); [|reflexivity]. destruct (ensure_hyper cl h) as [-> _]. destruct (ensure_bt cl); reflexivity.
Qed.
Lemma proba_hyper cl h X n : clf_predict_proba (set_hyper cl h) X n = with_hyper (clf_predict_proba cl X n) h.
Proof.
  unfold clf_predict_proba. cbn [c_rs c_bt c_pc set_hyper]. destruct (c_rs cl); [|reflexivity]. change (prediction_frame (set_hyper cl h)) with (prediction_frame cl).
  destruct (bind (attr (c_bt cl)) _) as [[df p]|]; reflexivity.
Qed.
Lemma score_hyper {A} (m : list bool -> list bool -> res A) cl h X y : clf_score m (set_hyper cl h) X y = with_hyper (clf_score m cl X y) h.
Proof. unfold clf_score. rewrite predict_hyper. destruct (clf_predict cl X None); reflexivity. Qed.
Lemma stats_hyper w cl h X y e n : clf_rule_stats w (set_hyper cl h) X y e n = with_hyper (clf_rule_stats w cl X y e n) h.
Proof.
  unfold clf_rule_stats. cbn [c_rs set_hyper]. destruct (c_rs cl); [|reflexivity]. destruct (ensure_hyper cl h) as [-> _]. destruct (ensure_bt cl); reflexivity.
Qed.
Lemma recal_hyper cl h X y n ms rm d : h_alpha h = h_alpha (c_hyper cl) -> clf_recalibrate (set_hyper cl h) X y n ms rm d = with_hyper (clf_recalibrate cl X y n ms rm d) h.
Proof.
  intros E. unfold clf_recalibrate. cbn [c_cf c_pc c_bt c_rs c_hyper set_hyper]. rewrite E. destruct (c_cf cl), (c_pc cl); try reflexivity.
  destruct (if d then _ else _); [|reflexivity]. destruct (preprocess_recalibrate _ _ _ _ _); [|reflexivity]. destruct (c_rs cl); [|reflexivity]. destruct (recalibrate_run _ _ _ _ _ _ _); reflexivity.
Qed.
Lemma edit_hyper cl h f : edit (set_hyper cl h) f = with_hyper (edit cl f) h.
Proof. unfold edit. cbn [c_rs set_hyper]. destruct (c_rs cl); [|reflexivity]. destruct (f _); reflexivity. Qed.
Lemma init_hyper cl h m f p : init_ruleset (set_hyper cl h) m f p = with_hyper (init_ruleset cl m f p) h.
Proof. unfold init_ruleset. destruct (frommodel m); reflexivity. Qed.
Lemma perform_hyper w cl h k : asks k = true -> h_alpha h = h_alpha (c_hyper cl) -> perform w (set_hyper cl h) k = with_hyper (perform w cl k) h.
Proof.
  intros A E. destruct k; cbn [asks] in A; try discriminate A; cbn [perform]; unfold add_rule, remove_rule_at, remove_rule, insert_rule_at, insert_rule, replace_rule_at, replace_rule.
  - rewrite predict_hyper. destruct (clf_predict _ _ _); reflexivity.
  - rewrite reasons_hyper. destruct (clf_predict_reasons _ _ _); reflexivity.
  - rewrite proba_hyper. destruct (clf_predict_proba _ _ _); reflexivity.
  - rewrite score_hyper. destruct (clf_score _ _ _ _); reflexivity.
  - rewrite stats_hyper. destruct (clf_rule_stats _ _ _ _ _ _); reflexivity.
  - rewrite recal_hyper by exact E. destruct (clf_recalibrate _ _ _ _ _ _ _); reflexivity.
  - rewrite edit_hyper. destruct (edit _ _); reflexivity.
  - rewrite edit_hyper. destruct (edit _ _); reflexivity.
  - rewrite edit_hyper. destruct (edit _ _); reflexivity.
  - rewrite edit_hyper. destruct (edit _ _); reflexivity.
  - rewrite edit_hyper. destruct (edit _ _); reflexivity.
  - rewrite edit_hyper. destruct (edit _ _); reflexivity.
  - rewrite edit_hyper. destruct (edit _ _); reflexivity.
  - rewrite init_hyper. destruct (init_ruleset _ _ _ _); reflexivity.
Qed.
Lemma perform_keeps w cl k : asks k = true -> c_hyper (fst (perform w cl k)) = c_hyper cl.
Proof.
  intros A. assert (P := perform_hyper w cl (c_hyper cl) k A eq_refl). rewrite set_hyper_id in P. rewrite P. reflexivity.
Qed.
Lemma set_hyper_answers w cl h : same_answers w (set_hyper cl h) cl.
Proof.
  constructor; [constructor| | |]; intros; try reflexivity.
  - rewrite predict_hyper. reflexivity.
  - rewrite score_hyper. reflexivity.
  - rewrite stats_hyper. reflexivity.
  - rewrite reasons_hyper. reflexivity.
  - rewrite proba_hyper. reflexivity.
Qed.

(** ** C113. set_params changes no answer ... *)
Theorem C113_set_params : forall w cl kw, same_answers w (set_params cl kw) cl.
Proof. intros w cl kw. apply set_hyper_answers. Qed.
Print Assumptions C113_set_params.

Lemma alpha_of h : param_value h P_alpha = VQ (h_alpha h). Proof. reflexivity. Qed.
Lemma set_params_alpha cl kw : ~ In P_alpha (map fst kw) -> h_alpha (c_hyper (set_params cl kw)) = h_alpha (c_hyper cl).
Proof.
  intros N. assert (E := fold_param_other kw (c_hyper cl) P_alpha N). rewrite !alpha_of in E. injection E as E. exact E.
Qed.
Lemma perform_all_hyper w calls : forall cl h, Forall no_alpha calls -> h_alpha h = h_alpha (c_hyper cl) ->
  let a := perform_all w (set_hyper cl h) calls in let b := perform_all w cl (filter asks calls) in
  (exists h', fst a = set_hyper (fst b) h' /\ h_alpha h' = h_alpha (c_hyper (fst b))) /\ map snd (filter (fun ko => asks (fst ko)) (combine calls (snd a))) = snd b.
Proof.
  induction calls as [|k t IH]; intros cl h F E; cbv zeta.
  - cbn [perform_all filter fst snd combine map]. split; [exists h; auto|reflexivity].
  - inversion F as [|? ? F1 F2]; subst. cbn [filter perform_all]. destruct (asks k) eqn:A.
    + rewrite (perform_hyper w cl h k A E). unfold with_hyper. cbn [perform_all]. assert (K := perform_keeps w cl k A). destruct (perform w cl k) as [c1 o] eqn:P. cbn [fst snd] in *.
      specialize (IH c1 h F2). rewrite K in IH. specialize (IH E). cbv zeta in IH.
      destruct (perform_all w (set_hyper c1 h) t) as [c2 os]. destruct (perform_all w c1 (filter asks t)) as [c3 os3]. cbn [fst snd combine filter map] in *.
      rewrite A. destruct IH as [IH1 IH2]. cbn [map snd]. rewrite IH2. split; [exact IH1|reflexivity].
    + destruct k as [| | | | | |kw| | | | | | | |]; cbn [asks] in A; try discriminate A. cbn [perform]. cbn [no_alpha] in F1.
      assert (Q : set_params (set_hyper cl h) kw = set_hyper cl (c_hyper (set_params (set_hyper cl h) kw))) by reflexivity. rewrite Q.
      specialize (IH cl (c_hyper (set_params (set_hyper cl h) kw)) F2). rewrite (set_params_alpha _ _ F1) in IH. specialize (IH E). cbv zeta in IH.
      destruct (perform_all w (set_hyper cl _) t) as [c2 os]. cbn [fst snd combine filter map asks] in *. exact IH.
Qed.

(** ** ... whatever else is called before and after it, as long as no alpha is set: every other call of the history ends as it would have without the
    set_params calls, and all answers afterwards are the same -- also after a recalibration on any data. *)
Theorem C113_history : forall w calls cl, Forall no_alpha calls ->
  let with_ := perform_all w cl calls in let without := perform_all w cl (filter asks calls) in
  map snd (filter (fun ko => asks (fst ko)) (combine calls (snd with_))) = snd without /\ same_answers w (fst with_) (fst without) /\
  forall X y n ms rm d, let a := clf_recalibrate (fst with_) X y n ms rm d in let b := clf_recalibrate (fst without) X y n ms rm d in
    snd a = snd b /\ same_answers w (fst a) (fst b).
Proof.
  intros w calls cl F. cbv zeta. destruct (perform_all_hyper w calls cl (c_hyper cl) F eq_refl) as [(h & E & A) O]. rewrite set_hyper_id in *. rewrite E.
  split; [exact O|]. split; [apply set_hyper_answers|]. intros. rewrite recal_hyper by exact A. split; [reflexivity|apply set_hyper_answers].
Qed.
Print Assumptions C113_history.

(** ** With alpha as well: what recalibrations leave may differ, nothing else does *)
Record alike (a b : clf) : Prop := mkalike { al_rules : rules_of a = rules_of b; al_cf : c_cf a = c_cf b; al_pc : c_pc a = c_pc b; al_bt : c_bt a = c_bt b;
  al_sel : c_sel a = c_sel b; al_feats : c_feats a = c_feats b }.
Lemma alike_refl a : alike a a. Proof. constructor; reflexivity. Qed.
Definition same_list (l l' : list rule) : Prop := map conds l = map conds l'.
Lemma get_conds_same l l' : same_list l l' -> get_conds l = get_conds l'.
Proof.
  unfold get_conds. generalize (@nil cond). revert l'. induction l as [|r t IH]; intros [|r' t'] acc E; try discriminate E; [reflexivity|].
  unfold same_list in E. cbn [map] in E. injection E as E1 E2. cbn [fold_left]. rewrite E1. apply IH. exact E2.
Qed.
Lemma strs_same l l' : same_list l l' -> map rule_str l = map rule_str l'.
Proof.
  revert l'. induction l as [|r t IH]; intros [|r' t'] E; try discriminate E; [reflexivity|]. unfold same_list in E. cbn [map] in *. injection E as E1 E2. f_equal; [|apply IH; exact E2].
  unfold rule_str. rewrite E1. reflexivity.
Qed.
Lemma same_length l l' : same_list l l' -> length l = length l'.
Proof. intros E. rewrite <- (map_length conds l), E. apply map_length. Qed.
Lemma index_same r l l' : same_list l l' -> index_of r l = index_of r l'.
Proof.
  revert l'. induction l as [|x t IH]; intros [|x' t'] E; try discriminate E; [reflexivity|]. unfold same_list in E. cbn [map] in E. injection E as E1 E2. cbn [index_of].
  unfold rule_eqb, cond_strs. rewrite E1, (IH _ E2). reflexivity.
Qed.
Lemma find_same r l l' : same_list l l' -> find_rule r l = find_rule r l'.
Proof. intros E. unfold find_rule. rewrite (index_same r l l' E). reflexivity. Qed.
Lemma check_same i l l' : same_list l l' -> check_index i l = check_index i l'.
Proof. intros E. unfold check_index. rewrite (same_length l l' E). reflexivity. Qed.
Definition same_outcome (o o' : res (list rule)) : Prop := match o, o' with Ok l, Ok l' => same_list l l' | Err e, Err e' => e = e' | _, _ => False end.
Lemma remove_map {A B} (f : A -> B) l : forall n, map f (remove_nth n l) = remove_nth n (map f l).
Proof. induction l as [|x t IH]; intros [|n]; cbn [remove_nth map]; try reflexivity. rewrite IH. reflexivity. Qed.
Lemma set_map {A B} (f : A -> B) v l : forall n, map f (set_nth n v l) = set_nth n (f v) (map f l).
Proof. induction l as [|x t IH]; intros [|n]; cbn [set_nth map]; try reflexivity. rewrite IH. reflexivity. Qed.
Lemma remove_same i l l' : same_list l l' -> same_outcome (rs_remove i l) (rs_remove i l').
Proof. intros E. unfold rs_remove. rewrite (check_same i l l' E). destruct (check_index i l'); cbn [bind same_outcome]; [|reflexivity]. unfold same_list in *. rewrite !remove_map, E. reflexivity. Qed.
Lemma insert_same i r l l' : same_list l l' -> same_outcome (rs_insert i r l) (rs_insert i r l').
Proof.
  intros E. unfold rs_insert. rewrite (check_same i l l' E). destruct (check_index i l'); cbn [bind same_outcome]; [|reflexivity]. unfold same_list in *.
  rewrite !map_app. cbn [map]. rewrite <- !firstn_map, <- !skipn_map, E. reflexivity.
Qed.
Lemma replace_same i r l l' : same_list l l' -> same_outcome (rs_replace i r l) (rs_replace i r l').
Proof. intros E. unfold rs_replace. rewrite (check_same i l l' E). destruct (check_index i l'); cbn [bind same_outcome]; [|reflexivity]. unfold same_list in *. rewrite !set_map, E. reflexivity. Qed.
Lemma edit_alike a b f : alike a b -> (forall l l', same_list l l' -> same_outcome (f l) (f l')) -> alike (fst (edit a f)) (fst (edit b f)) /\ snd (edit a f) = snd (edit b f).
Proof.
  intros AL K. assert (AL0 := AL). destruct AL as [R F P B S E]. unfold edit. unfold rules_of in R. destruct (c_rs a) as [x|] eqn:X, (c_rs b) as [y|] eqn:Y; cbn [option_map] in R; try discriminate R; [|auto].
  assert (R' : same_list (rs_rules x) (rs_rules y)) by (unfold same_list; congruence). specialize (K _ _ R'). destruct (f (rs_rules x)) as [l|e], (f (rs_rules y)) as [l'|e']; cbn [same_outcome] in K; try contradiction.
  - cbn [fst snd]. split; [|reflexivity]. constructor; try assumption. unfold rules_of. cbn. unfold same_list in K. rewrite K. reflexivity.
  - subst e'. cbn [fst snd]. auto.
Qed.
Lemma bind_same {A} (o : res A) f g : (forall a, same_outcome (f a) (g a)) -> same_outcome (bind o f) (bind o g).
Proof. intros K. destruct o; cbn [bind]; [apply K|reflexivity]. Qed.
Lemma ensure_alike a b : alike a b -> alike (fst (ensure_bt a)) (fst (ensure_bt b)) /\ snd (ensure_bt a) = snd (ensure_bt b).
Proof.
  intros AL. assert (AL0 := AL). destruct AL as [R F P B S E]. unfold ensure_bt. rewrite <- B. destruct (c_bt a) as [bt|] eqn:BA; [auto|].
  assert (K : alike (set_bt a bt_empty) (set_bt b bt_empty)) by (constructor; auto).
  unfold rules_of in R. destruct (c_rs a) as [x|] eqn:X, (c_rs b) as [y|] eqn:Y; cbn [option_map] in R; try discriminate R; [|auto].
  cbn [fst snd]. split; [exact K|]. unfold construct_from_ruleset. rewrite (get_conds_same (rs_rules x) (rs_rules y)) by (unfold same_list; congruence). reflexivity.
Qed.
Lemma frame_alike a b bt X n : alike a b -> prediction_frame a bt X n = prediction_frame b bt X n.
Proof. intros [R F P B S E]. unfold prediction_frame. rewrite F, P, S, E. reflexivity. Qed.
Lemma predict_alike a b X n : alike a b -> alike (fst (clf_predict a X n)) (fst (clf_predict b X n)) /\ snd (clf_predict a X n) = snd (clf_predict b X n).
Proof.
  intros AL. assert (R := al_rules _ _ AL). unfold rules_of in R. unfold clf_predict. destruct (c_rs a) as [x|] eqn:X1, (c_rs b) as [y|] eqn:Y; cbn [option_map] in R; try discriminate R; [|auto].
  destruct (ensure_alike a b AL) as [K1 K2]. destruct (ensure_bt a) as [a1 o], (ensure_bt b) as [b1 o']. cbn [fst snd] in *. subst o'. split; [exact K1|]. destruct o as [bt|]; cbn [bind]; [|reflexivity].
  rewrite (frame_alike a1 b1 bt X n K1). destruct (prediction_frame _ _ _ _); cbn [bind]; [|reflexivity]. apply predict_conds. congruence.
Qed.
Lemma reasons_alike a b X n : alike a b -> alike (fst (clf_predict_reasons a X n)) (fst (clf_predict_reasons b X n)).
Proof.
  intros AL. assert (R := al_rules _ _ AL). unfold rules_of in R. unfold clf_predict_reasons. destruct (c_rs a) as [x|] eqn:X1, (c_rs b) as [y|] eqn:Y; cbn [option_map] in R; try discriminate R; [|auto].
  destruct (ensure_alike a b AL) as [K1 K2]. destruct (ensure_bt a) as [a1 o], (ensure_bt b) as [b1 o']. exact K1.
Qed.
Lemma score_alike {A} (m : list bool -> list bool -> res A) a b X y : alike a b -> alike (fst (clf_score m a X y)) (fst (clf_score m b X y)) /\ snd (clf_score m a X y) = snd (clf_score m b X y).
Proof.
  intros AL. unfold clf_score. destruct (predict_alike a b X None AL) as [K1 K2]. destruct (clf_predict a X None) as [a1 o], (clf_predict b X None) as [b1 o']. cbn [fst snd] in *. subst o'.
  split; [exact K1|]. rewrite (al_pc _ _ AL). reflexivity.
Qed.
Lemma stat_of_same w f p df ys e i r r' : conds r = conds r' -> stat_of w f p df ys e i r = stat_of w f p df ys e i r'.
Proof. intros E. unfold stat_of, rule_str. rewrite (rule_covers_conds r r' df E), E. reflexivity. Qed.
Lemma lines_same w f p df ys e : forall l l' k, same_list l l' ->
  mapM (fun ir : nat * rule => stat_of w f p df ys e (fst ir) (snd ir)) (combine (seq k (length l)) l) = mapM (fun ir : nat * rule => stat_of w f p df ys e (fst ir) (snd ir)) (combine (seq k (length l')) l').
Proof.
  induction l as [|r t IH]; intros [|r' t'] k E; try discriminate E; [reflexivity|]. unfold same_list in E. cbn [map] in E. injection E as E1 E2. cbn [length seq combine mapM fst snd].
  rewrite (stat_of_same w f p df ys e k r r' E1), (IH t' (S k) E2). reflexivity.
Qed.
Lemma stats_alike w a b X y e n : alike a b -> alike (fst (clf_rule_stats w a X y e n)) (fst (clf_rule_stats w b X y e n)) /\ snd (clf_rule_stats w a X y e n) = snd (clf_rule_stats w b X y e n).
Proof.
  intros AL. assert (R := al_rules _ _ AL). unfold rules_of in R. unfold clf_rule_stats. rewrite <- (al_cf _ _ AL), <- (al_pc _ _ AL).
  destruct (c_rs a) as [x|] eqn:X1, (c_rs b) as [z|] eqn:Y; cbn [option_map] in R; try discriminate R; [|auto].
  destruct (ensure_alike a b AL) as [K1 K2]. destruct (ensure_bt a) as [a1 o] eqn:EA, (ensure_bt b) as [b1 o'] eqn:EB. cbn [fst snd] in *. subst o'. split; [exact K1|].
  destruct o as [bt|]; cbn [bind]; [|reflexivity]. rewrite (frame_alike a1 b1 bt X n K1). destruct (prediction_frame _ _ _ _) as [df|]; cbn [bind]; [|reflexivity].
  destruct (attr (c_cf a)) as [f|]; cbn [bind]; [|reflexivity]. destruct (attr (c_pc a)) as [p|]; cbn [bind]; [|reflexivity].
  match goal with |- bind ?q _ = bind ?q _ => destruct q; cbn [bind]; [|reflexivity] end. apply lines_same. unfold same_list. congruence.
Qed.
Lemma recal_alike a b X y n ms rm d : alike a b -> alike (fst (clf_recalibrate a X y n ms rm d)) (fst (clf_recalibrate b X y n ms rm d)).
Proof.
  intros [R F P B S E]. destruct (clf_recalibrate a X y n ms rm d) as [a1 o] eqn:EA, (clf_recalibrate b X y n ms rm d) as [b1 o'] eqn:EB. cbn [fst].
  assert (SA := recalibrate_same _ _ _ _ _ _ _ _ _ EA). assert (SB := recalibrate_same _ _ _ _ _ _ _ _ _ EB). apply recal_attrs in EA, EB.
  destruct EA as (A1 & A2 & A3 & A4 & A5 & _), EB as (B1 & B2 & B3 & B4 & B5 & _). constructor; try congruence. rewrite (sm_rules _ _ SA), (sm_rules _ _ SB). exact R.
Qed.
Lemma proba_alike a b X n : alike a b -> alike (fst (clf_predict_proba a X n)) (fst (clf_predict_proba b X n)).
Proof.
  intros AL. assert (AL0 := AL). destruct AL as [R F P B S E]. unfold clf_predict_proba. rewrite <- B, <- P. unfold prediction_frame. rewrite <- F, <- P, <- S, <- E.
  unfold rules_of in R. destruct (c_rs a) as [x|] eqn:X1, (c_rs b) as [y|] eqn:Y; cbn [option_map] in R; try discriminate R; [|auto].
  match goal with |- context [bind (attr (c_bt a)) ?k] => destruct (bind (attr (c_bt a)) k) as [[df p]|] end; [|exact AL0]. constructor; cbn; auto. unfold rules_of. cbn. rewrite X1, Y. exact R.
Qed.
Lemma init_alike a b m f p : alike a b -> alike (fst (init_ruleset a m f p)) (fst (init_ruleset b m f p)).
Proof. intros AL. unfold init_ruleset. destruct (frommodel m); [|exact AL]. destruct AL as [R F P B S E]. constructor; try reflexivity. exact B. Qed.
Lemma hyper_alike a b h : alike a b -> alike (set_hyper a h) b. Proof. intros [R F P B S E]. constructor; assumption. Qed.
Lemma perform_alike w a b k : alike a b -> asks k = true -> alike (fst (perform w a k)) (fst (perform w b k)).
Proof.
  intros AL A. assert (FE : forall f, (forall l l', same_list l l' -> same_outcome (f l) (f l')) -> alike (fst (let '(c, r) := edit a f in (c, failure r))) (fst (let '(c, r) := edit b f in (c, failure r)))).
  { intros f K. destruct (edit_alike a b f AL K) as [Q _]. destruct (edit a f), (edit b f). exact Q. }
  destruct k; cbn [asks] in A; try discriminate A; cbn [perform]; unfold add_rule, remove_rule_at, remove_rule, insert_rule_at, insert_rule, replace_rule_at, replace_rule;
    try (apply FE; clear FE; intros l l' SL).
  - destruct (predict_alike a b X names AL) as [Q _]. destruct (clf_predict a X names), (clf_predict b X names). exact Q.
  - assert (Q := reasons_alike a b X names AL). destruct (clf_predict_reasons a X names), (clf_predict_reasons b X names). exact Q.
  - assert (Q := proba_alike a b X names AL). destruct (clf_predict_proba a X names), (clf_predict_proba b X names). exact Q.
  - destruct (score_alike metric a b X y AL) as [Q _]. destruct (clf_score metric a X y), (clf_score metric b X y). exact Q.
  - destruct (stats_alike w a b X y n names AL) as [Q _]. destruct (clf_rule_stats w a X y n names), (clf_rule_stats w b X y n names). exact Q.
  - assert (Q := recal_alike a b X y names min_samples require_min discretize AL). destruct (clf_recalibrate a _ _ _ _ _ _), (clf_recalibrate b _ _ _ _ _ _). exact Q.
  - apply bind_same. intros r. cbn [same_outcome]. unfold same_list, rs_add in *. rewrite !map_app, SL. reflexivity.
  - apply remove_same. exact SL.
  - apply bind_same. intros r. unfold rs_remove_rule. rewrite (find_same r l l' SL). apply bind_same. intros i. apply remove_same. exact SL.
  - rewrite (check_same i l l' SL). apply bind_same. intros j. apply bind_same. intros r. apply insert_same. exact SL.
  - apply bind_same. intros q. rewrite (find_same q l l' SL). apply bind_same. intros j. apply bind_same. intros r. unfold rs_insert_rule. rewrite (find_same q l l' SL). apply bind_same. intros i. apply insert_same. exact SL.
  - rewrite (check_same i l l' SL). apply bind_same. intros j. apply bind_same. intros r. apply replace_same. exact SL.
  - apply bind_same. intros q. rewrite (find_same q l l' SL). apply bind_same. intros j. apply bind_same. intros r. unfold rs_replace_rule. rewrite (find_same q l l' SL). apply bind_same. intros i. apply replace_same. exact SL.
  - assert (Q := init_alike a b m f p AL). destruct (init_ruleset a m f p), (init_ruleset b m f p). exact Q.
Qed.
Lemma perform_all_alike w calls : forall a b, alike a b -> alike (fst (perform_all w a calls)) (fst (perform_all w b (filter asks calls))).
Proof.
  induction calls as [|k t IH]; intros a b AL; [exact AL|]. cbn [filter]. destruct (asks k) eqn:A; cbn [perform_all].
  - assert (Q := perform_alike w a b k AL A). destruct (perform w a k) as [a1 o], (perform w b k) as [b1 o']. cbn [fst] in Q. specialize (IH a1 b1 Q).
    destruct (perform_all w a1 t), (perform_all w b1 (filter asks t)). exact IH.
  - destruct k; cbn [asks] in A; try discriminate A. cbn [perform]. assert (Q : alike (set_params a kw) b) by (apply hyper_alike; exact AL). specialize (IH _ _ Q).
    destruct (perform_all w (set_params a kw) t). exact IH.
Qed.
Lemma alike_predictions w a b : alike a b -> same_predictions w a b.
Proof.
  intros AL. constructor.
  - apply AL.
  - assert (R := al_rules _ _ AL). unfold rules_of in R. unfold out_model. destruct (c_rs a) as [x|], (c_rs b) as [y|]; cbn [option_map] in R; try discriminate R; [|reflexivity].
    unfold rs_pretty. rewrite (strs_same (rs_rules x) (rs_rules y)) by (unfold same_list; congruence). reflexivity.
  - intros. apply predict_alike. exact AL.
  - intros. apply score_alike. exact AL.
  - intros. apply stats_alike. exact AL.
Qed.

(** ** Whatever hyperparameters are set at whatever points of whatever history (alpha included, recalibrations and edits included): the rules, the
    predictions, the scores and the rule statistics afterwards are those of the history without the set_params calls. *)
Theorem C113_any_parameters : forall w calls cl, same_predictions w (fst (perform_all w cl calls)) (fst (perform_all w cl (filter asks calls))).
Proof. intros w calls cl. apply alike_predictions, perform_all_alike, alike_refl. Qed.
Print Assumptions C113_any_parameters.

(** Examples on the fitted classifier of Prop_FitModel: a history that sets parameters; and alpha does count in the next recalibration *)
Definition meddling : list call := [SetParams [(P_k, VNat 0); (P_max_rules, VOpt (Some 0%Z)); (P_nbins, VOpt (Some 1%Z))]; Recalibrate (DFrame newcomers) (Some newcomers_y) None None false true;
  SetParams [(P_prune, VQ 1)]; PredictProba (DFrame newcomers) None].
Example C113_nonvacuous : Forall no_alpha meddling /\ snd (perform_all w1 people_clf meddling) = [None; None; None; None] /\
  get_params (fst (perform_all w1 people_clf meddling)) <> get_params people_clf /\
  snd (clf_predict_proba (fst (clf_recalibrate people_clf (DFrame newcomers) (Some newcomers_y) None None false true)) (DFrame newcomers) None) <>
  snd (clf_predict_proba (fst (clf_recalibrate (set_params people_clf [(P_alpha, VQ 2)]) (DFrame newcomers) (Some newcomers_y) None None false true)) (DFrame newcomers) None).
Proof.
  split; [repeat constructor; cbn; intuition discriminate|]. split; [vm_compute; reflexivity|]. split; vm_compute; discriminate.
Qed.
