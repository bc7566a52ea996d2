(** * HeapStep.v : every tidy operation works on one model only, and works on it as on a value *)
From Verif Require Export HeapFacts.
Open Scope nat_scope.

Definition as_alone (w : world) (st : mstate) (o : op) (m : nat) : Prop :=
  forall v, nth_error (model_views st) m = Some v ->
    nth_error (model_views (fst (step w st o))) m = Some (fst (alone w st o v)) /\ snd (step w st o) = snd (alone w st o v).
Definition good_step (w : world) (st : mstate) (o : op) : Prop :=
  inv (fst (step w st o)) /\ stable st (fst (step w st o)) (target o) /\ forall m, target o = Some m -> as_alone w st o m.

Lemma at_model st m e v : nth_error (models st) m = Some e -> nth_error (model_views st) m = Some v -> v = view (heap_ st) e.
Proof. intros E H. rewrite nth_error_mviews, E in H. cbn in H. congruence. Qed.
Lemma view_set st h m e : m < length (models st) -> nth_error (model_views (set_model st h m e)) m = Some (view h e).
Proof. intros L. rewrite nth_error_mviews. cbn [models set_model heap_]. rewrite set_nth_same by auto. reflexivity. Qed.
Lemma stable_refl st m : stable st st m.
Proof. intros k _ _. split; auto. Qed.
Lemma nth_lt {A} (l : list A) m e : nth_error l m = Some e -> m < length l.
Proof. intros H. apply nth_error_Some. congruence. Qed.

Section Step.
Variable w : world.
Variable st : mstate.
Hypothesis I : inv st.

Lemma good_newclf a hy : good_step w st (ONewClf a hy).
Proof. destruct (add_bare st (new_clf a hy) I). split; [|split]; auto. intros ? ?; discriminate. Qed.
Lemma good_newrule cs : good_step w st (ONewRule cs).
Proof. destruct (new_rule_step st (Rule_ cs) I). split; [|split]; auto. intros ? ?; discriminate. Qed.
Lemma good_newset l : tidy w st (ONewSet l) -> good_step w st (ONewSet l).
Proof.
  intros (ND & NU). unfold good_step. cbn [step target]. destruct (forallb _ l) eqn:F.
  - assert (FB : Forall (fun r => r < length (hr (heap_ st))) l).
    { rewrite Forall_forall. intros r Hr. rewrite forallb_forall in F. apply Nat.ltb_lt. apply F; auto. }
    destruct (new_set_step st l I ND NU FB) as (A & B & _). cbv zeta in *. destruct (new_obj (heap_ st) l None None) as [h1 s]. cbn [fst snd] in *.
    split; [|split]; auto. intros ? ?; discriminate.
  - split; [|split]; auto; [apply stable_refl | intros ? ?; discriminate].
Qed.
Lemma good_copy m : good_step w st (OCopy m).
Proof.
  unfold good_step. cbn [step target]. destruct (nth_error (models st) m) as [[[s|] a|s]|] eqn:E.
  - assert (R : ref_at st m = Some s) by (unfold ref_at; rewrite E; reflexivity). destruct (i_own _ I m s R) as (V & ND).
    pose proof (copy_set_facts (heap_ st) s (i_wf _ I) V ND) as C. destruct (copy_set (heap_ st) s) as [h1 s1]. cbn [fst snd] in *.
    destruct (fresh_add st (EClf (Some s1) a) h1 s1 _ I C eq_refl). split; [|split]; auto. intros ? ?; discriminate.
  - destruct (add_bare st a I). split; [|split]; auto. intros ? ?; discriminate.
  - assert (R : ref_at st m = Some s) by (unfold ref_at; rewrite E; reflexivity). destruct (i_own _ I m s R) as (V & ND).
    pose proof (copy_set_facts (heap_ st) s (i_wf _ I) V ND) as C. destruct (copy_set (heap_ st) s) as [h1 s1]. cbn [fst snd] in *.
    destruct (fresh_add st (ESet s1) h1 s1 _ I C eq_refl). split; [|split]; auto. intros ? ?; discriminate.
  - split; [|split]; auto; [apply stable_refl | intros ? ?; discriminate].
Qed.
(** a call on something that is not there *)
Lemma good_idle o m : step w st o = (st, no_such) -> target o = Some m -> (forall v, nth_error (model_views st) m = Some v -> alone w st o v = (v, no_such)) -> good_step w st o.
Proof.
  intros S T A. unfold good_step. rewrite S, T. cbn [fst snd]. split; [|split]; auto; [apply stable_refl|].
  intros k H. injection H as <-. intros v Hv. rewrite S, (A v Hv). auto.
Qed.
Lemma good_call m k : good_step w st (OCall m k).
Proof.
  destruct (nth_error (models st) m) as [[ref a|s]|] eqn:E.
  - destruct (plain_call k) eqn:PC.
    2:{ apply (good_idle _ m); auto; [cbn [step]; rewrite E, PC; reflexivity|]. intros v Hv. rewrite (at_model _ _ _ _ E Hv). cbn [alone view]. rewrite PC. reflexivity. }
    unfold good_step, as_alone. cbn [step target]. rewrite E, PC. destruct (perform w (clf_view (heap_ st) ref a) k) as [c e] eqn:P. cbn [fst snd].
    destruct (attrs_step st m (EClf ref c) I) as (A & B); [unfold ref_at; rewrite E; reflexivity|]. split; [|split]; auto.
    intros m' H. injection H as <-. intros v Hv. rewrite (at_model _ _ _ _ E Hv). cbn [alone view]. rewrite PC, P. cbn [fst snd]. split; auto.
    rewrite view_set by (eapply nth_lt; eauto). cbn [view]. f_equal. f_equal. unfold clf_view. apply with_rs_same.
    pose proof (plain_rs w (clf_view (heap_ st) ref a) k PC) as PR. rewrite P in PR. cbn [fst] in PR. rewrite PR. reflexivity.
  - apply (good_idle _ m); auto; [cbn [step]; rewrite E; reflexivity|]. intros v Hv. rewrite (at_model _ _ _ _ E Hv). reflexivity.
  - apply (good_idle _ m); auto; [cbn [step]; rewrite E; reflexivity|]. intros v Hv. rewrite nth_error_mviews, E in Hv. discriminate.
Qed.

Lemma good_recal m X y names ms rm d : good_step w st (ORecal m X y names ms rm d).
Proof.
  destruct (nth_error (models st) m) as [[ref a|s]|] eqn:E.
  - unfold good_step, as_alone. cbn [step target]. rewrite E.
    assert (IDLE : forall e, clf_recalibrate (clf_view (heap_ st) ref a) X y names ms rm d = (clf_view (heap_ st) ref a, Err e) ->
       inv st /\ stable st st (Some m) /\ (forall m0, Some m = Some m0 -> forall v, nth_error (model_views st) m0 = Some v ->
         nth_error (model_views st) m0 = Some (fst (alone w st (ORecal m X y names ms rm d) v)) /\ Some e = snd (alone w st (ORecal m X y names ms rm d) v))).
    { intros e H. split; [|split]; auto; [apply stable_refl|]. intros m0 M0 v Hv. injection M0 as <-. rewrite Hv, (at_model _ _ _ _ E Hv). cbn [alone view perform]. rewrite H. cbn. auto. }
    unfold clf_recalibrate in IDLE. cbn [clf_view with_rs c_cf c_pc c_bt c_rs c_hyper] in IDLE.
    destruct (c_cf a) as [f|] eqn:CF; [|cbn [fst snd]; apply IDLE; reflexivity].
    destruct (c_pc a) as [p|] eqn:CP; [|cbn [fst snd]; apply IDLE; reflexivity].
    destruct (if d then _ else _) as [bt|e] eqn:BT; [|cbn [fst snd]; apply IDLE; reflexivity].
    destruct (preprocess_recalibrate X y f names bt) as [df|e] eqn:PR; [|cbn [fst snd]; apply IDLE; reflexivity].
    destruct ref as [s|]; [|cbn [fst snd]; apply IDLE; reflexivity]. clear IDLE.
    assert (R : ref_at st m = Some s) by (unfold ref_at; rewrite E; reflexivity). destruct (i_own _ I m s R) as (V & ND).
    destruct (recal_obj_facts ms rm (h_alpha (c_hyper a)) (heap_ st) s df f p (i_wf _ I) V ND) as (LC & RR).
    destruct (recal_obj (h_alpha (c_hyper a)) (heap_ st) s df f p) as [h1 r]. cbn [fst snd] in *.
    destruct (local_step st m s h1 none I R LC) as (A & B); [intros ? ? ? []|]. split; [|split]; auto.
    intros m' H. injection H as <-. intros v Hv. rewrite (at_model _ _ _ _ E Hv). cbn [alone view perform].
    unfold clf_recalibrate. cbn [clf_view with_rs c_cf c_pc c_bt c_rs c_hyper option_map]. rewrite CF, CP, BT, PR, RR. cbn [fst snd]. split; auto.
    rewrite nth_error_mviews. cbn [models heap_]. rewrite E. cbn [option_map view]. reflexivity.
  - apply (good_idle _ m); auto; [cbn [step]; rewrite E; reflexivity|]. intros v Hv. rewrite (at_model _ _ _ _ E Hv). reflexivity.
  - apply (good_idle _ m); auto; [cbn [step]; rewrite E; reflexivity|]. intros v Hv. rewrite nth_error_mviews, E in Hv. discriminate.
Qed.
Lemma good_recalset m alpha fr cf pc : good_step w st (ORecalSet m alpha fr cf pc).
Proof.
  destruct (nth_error (models st) m) as [[ref a|s]|] eqn:E.
  - apply (good_idle _ m); auto; [cbn [step]; rewrite E; reflexivity|]. intros v Hv. rewrite (at_model _ _ _ _ E Hv). reflexivity.
  - unfold good_step, as_alone. cbn [step target]. rewrite E.
    assert (R : ref_at st m = Some s) by (unfold ref_at; rewrite E; reflexivity). destruct (i_own _ I m s R) as (V & ND).
    destruct (recal_obj_facts (Some 1%Z) false alpha (heap_ st) s fr cf pc (i_wf _ I) V ND) as (LC & RR).
    destruct (recal_obj alpha (heap_ st) s fr cf pc) as [h1 r]. cbn [fst snd] in *.
    destruct (local_step st m s h1 none I R LC) as (A & B); [intros ? ? ? []|]. split; [|split]; auto.
    intros m' H. injection H as <-. intros v Hv. rewrite (at_model _ _ _ _ E Hv). cbn [alone view]. rewrite RR. cbn [fst snd]. split; auto.
    rewrite nth_error_mviews. cbn [models heap_]. rewrite E. reflexivity.
  - apply (good_idle _ m); auto; [cbn [step]; rewrite E; reflexivity|]. intros v Hv. rewrite nth_error_mviews, E in Hv. discriminate.
Qed.

Lemma good_edit m ed : tidy w st (OEdit m ed) -> good_step w st (OEdit m ed).
Proof.
  intros CL. cbn [tidy] in CL.
  destruct (nth_error (models st) m) as [e|] eqn:E.
  2:{ apply (good_idle _ m); auto; [cbn [step]; rewrite E; reflexivity|]. intros v Hv. rewrite nth_error_mviews, E in Hv. discriminate. }
  unfold good_step, as_alone. cbn [step target]. rewrite E. destruct (ref_of e) as [s|] eqn:RE.
  2:{ cbn [fst snd]. split; [|split]; auto; [apply stable_refl|]. intros m0 M0 v Hv. injection M0 as <-. rewrite Hv, (at_model _ _ _ _ E Hv).
      destruct e as [o a|s]; cbn [ref_of] in RE; [|discriminate]. subst o. cbn [view alone]. rewrite perform_edit. unfold edit, clf_view. cbn. auto. }
  assert (R : ref_at st m = Some s) by (unfold ref_at; rewrite E; exact RE). destruct (i_own _ I m s R) as (V & ND).
  assert (AE : forall a, stored ed = Some a -> arg_exists (heap_ st) a).
  { intros [r|o] SA; [|exact Logic.I]. destruct (CL _ SA) as (B & _). exact B. }
  assert (NI : forall r m' s', stored ed = Some (AObj r) -> ref_at st m' = Some s' -> ~ In r (refs (heap_ st) s')).
  { intros r m' s' SA R' IN. destruct (CL _ SA) as (_ & NU). apply NU. unfold ref_at in R'. destruct (nth_error (models st) m') as [e'|] eqn:E'; [|discriminate]. exists m', e', s'. auto. }
  destruct (edit_obj_facts (heap_ st) s ed (i_wf _ I) V ND AE ltac:(intros r SA; eapply NI; eauto)) as (LC & RR).
  destruct (edit_obj (heap_ st) s ed) as [h1 r]. cbn [fst snd] in *.
  destruct (local_step st m s h1 _ I R LC) as (A & B); [intros r0 m' s' SA N R'; eapply NI; eauto|]. split; [|split]; auto.
  intros m' H. injection H as <-. intros v Hv. rewrite (at_model _ _ _ _ E Hv). rewrite nth_error_mviews. cbn [models heap_]. rewrite E. cbn [option_map].
  destruct e as [o a|s0]; cbn [ref_of] in RE.
  - subst o. cbn [view alone]. rewrite perform_edit. unfold edit, clf_view. cbn [option_map with_rs c_rs].
    destruct r as [u|er].
    + destruct RR as (VE & OB). rewrite VE. cbn [fst snd failure]. split; auto. f_equal. f_equal. unfold with_rs, set_rs. cbn. f_equal. f_equal.
      unfold set_rules, get_set. cbn [rs_rules rs_possible rs_uncov]. rewrite OB. reflexivity.
    + destruct RR as (VE & ->). rewrite VE. cbn [fst snd failure]. auto.
  - injection RE as ->. cbn [view alone]. rewrite perform_edit. unfold edit, set_as_clf. cbn [with_rs c_rs].
    destruct r as [u|er].
    + destruct RR as (VE & OB). rewrite VE. cbn [fst snd failure clf_as_set set_rs c_rs]. split; auto. f_equal. f_equal.
      unfold set_rules, get_set. cbn [rs_rules rs_possible rs_uncov]. rewrite OB. reflexivity.
    + destruct RR as (VE & ->). rewrite VE. cbn [fst snd failure clf_as_set with_rs c_rs]. auto.
Qed.

Lemma good_init m hm f p : good_step w st (OInit m hm f p).
Proof.
  destruct (nth_error (models st) m) as [[ref a|s]|] eqn:E.
  - unfold good_step, as_alone. cbn [step target]. rewrite E. pose proof (h_frommodel_facts st hm I) as FM.
    destruct (h_frommodel st hm) as [[h1 s]|e].
    + destruct FM as (x & FM & FS).
      destruct (fresh_step st m (EClf (Some s) (mkclf (c_alg a) (c_hyper a) None (Some f) (Some p) (c_bt a)
         (Some (selected_features (rs_rules (get_set h1 s)))) (Some (selected_features (rs_rules (get_set h1 s)))) (c_classes a))) h1 s x I (nth_lt _ _ _ E) FS eq_refl) as (A & B).
      cbn [fst snd]. split; [|split]; auto. intros m' H. injection H as <-. intros v Hv. rewrite (at_model _ _ _ _ E Hv).
      rewrite view_set by (eapply nth_lt; eauto). cbn [alone view perform]. unfold init_ruleset. rewrite FM. cbn [fst snd failure]. split; auto.
      f_equal. f_equal. unfold clf_view. cbn [option_map with_rs c_alg c_hyper c_cf c_pc c_bt c_sel c_feats c_classes]. rewrite (f_x _ _ _ _ FS). reflexivity.
    + cbn [fst snd]. split; [|split]; auto; [apply stable_refl|]. intros m0 M0 v Hv. injection M0 as <-. rewrite Hv, (at_model _ _ _ _ E Hv).
      cbn [alone view perform]. unfold init_ruleset. rewrite FM. cbn. auto.
  - apply (good_idle _ m); auto; [cbn [step]; rewrite E; reflexivity|]. intros v Hv. rewrite (at_model _ _ _ _ E Hv). reflexivity.
  - apply (good_idle _ m); auto; [cbn [step]; rewrite E; reflexivity|]. intros v Hv. rewrite nth_error_mviews, E in Hv. discriminate.
Qed.

(** what IREP stores before training, when it is not somebody else's object *)
Lemma h_start_own m ref a hm : nth_error (models st) m = Some (EClf ref a) -> (exists v, hm = HVal v) \/ hm = HModel m ->
  match h_start st hm with
  | Err e => irep_start (resolve st hm) = Err e
  | Ok (h1, s) => exists x, irep_start (resolve st hm) = Ok x /\ get_set h1 s = x /\
      (fresh_set (heap_ st) h1 s x \/ (h1 = heap_ st /\ ref = Some s))
  end.
Proof.
  intros E C. unfold h_start. destruct (irep_start (resolve st hm)) as [x|e] eqn:S; cbn [bind]; auto.
  assert (NW : fresh_set (heap_ st) (fst (new_set (heap_ st) x)) (snd (new_set (heap_ st) x)) x) by (apply new_set_facts; apply (i_wf _ I)).
  assert (NEW : match new_set (heap_ st) x with (h1, s) => exists x0, Ok x = Ok x0 /\ get_set h1 s = x0 /\ (fresh_set (heap_ st) h1 s x0 \/ (h1 = heap_ st /\ ref = Some s)) end).
  { destruct (new_set (heap_ st) x) as [h1 s]. cbn [fst snd] in NW. exists x. split; auto. split; auto. apply (f_x _ _ _ _ NW). }
  destruct (falsy (resolve st hm)) eqn:F; [exact NEW|].
  destruct C as [(v & ->) | ->]; cbn [model_ref]; [exact NEW|]. rewrite E. cbn [ref_of]. destruct ref as [s|]; [|exact NEW].
  cbn [resolve] in S, F. rewrite E in S, F. unfold irep_start in S. rewrite F in S. cbn [option_map] in S. injection S as <-. exists (get_set (heap_ st) s). auto.
Qed.

Lemma h_start_err hm e : h_start st hm = Err e -> irep_start (resolve st hm) = Err e.
Proof.
  unfold h_start. destruct (irep_start (resolve st hm)) as [x|e0]; cbn [bind]; [|congruence].
  destruct (falsy _); [discriminate|]. destruct (model_ref st hm); [discriminate|]. destruct hm; try discriminate. destruct (place_all _ _). discriminate.
Qed.
Lemma h_start_ok hm h1 s : h_start st hm = Ok (h1, s) -> exists x, irep_start (resolve st hm) = Ok x.
Proof. unfold h_start. destruct (irep_start (resolve st hm)) as [x|e0]; cbn [bind]; [eauto|discriminate]. Qed.

Lemma good_fit m X y cf pc names hm cnopt kw : tidy w st (OFit m X y cf pc names hm cnopt kw) -> good_step w st (OFit m X y cf pc names hm cnopt kw).
Proof.
  intros CL. destruct (nth_error (models st) m) as [[ref a|s]|] eqn:E.
  2:{ apply (good_idle _ m); auto; [cbn [step]; rewrite E; reflexivity|]. intros v Hv. rewrite (at_model _ _ _ _ E Hv). reflexivity. }
  2:{ apply (good_idle _ m); auto; [cbn [step]; rewrite E; reflexivity|]. intros v Hv. rewrite nth_error_mviews, E in Hv. discriminate. }
  set (o := OFit m X y cf pc names hm cnopt kw) in *.
  assert (L : m < length (models st)) by (eapply nth_lt; eauto).
  assert (RM : ref_at st m = ref) by (unfold ref_at; rewrite E; reflexivity).
  destruct (fit w (clf_view (heap_ st) ref a) X y cf pc names (resolve st hm) cnopt kw) as [v' r] eqn:FT.
  assert (AL : forall v, nth_error (model_views st) m = Some v -> alone w st o v = (VClf v', failure r)).
  { intros v Hv. rewrite (at_model _ _ _ _ E Hv). unfold o. cbn [alone view]. rewrite FT. reflexivity. }
  assert (FIN : forall h1 e, view h1 e = VClf v' -> step w st o = (set_model st h1 m e, failure r) ->
    inv (set_model st h1 m e) -> stable st (set_model st h1 m e) (Some m) -> good_step w st o).
  { intros h1 e VE S A B. unfold good_step, as_alone. rewrite S. cbn [fst snd target]. split; [|split]; auto.
    intros m' H. injection H as <-. intros v Hv. rewrite (AL v Hv). rewrite view_set by auto. cbn [fst snd]. rewrite VE. auto. }
  assert (CA : c_alg (clf_view (heap_ st) ref a) = c_alg a) by reflexivity.
  (* learned: new objects *)
  assert (TR : trains w (set_fit_params (clf_view (heap_ st) ref a) kw) X y cf pc names (resolve st hm) cnopt = true ->
     (c_alg a = IREP_ -> exists hs, h_start st hm = Ok hs) -> good_step w st o).
  { intros T ST. destruct (fit_trains _ _ _ _ _ _ _ _ _ _ _ _ FT) as (x & RX); auto.
    { intros A. destruct (ST A) as ((h0 & s0) & HS). apply (h_start_ok _ _ _ HS). }
    pose proof (new_set_facts (heap_ st) x (i_wf _ I)) as FS. cbv zeta in FS.
    destruct (fresh_step st m (EClf (Some (snd (new_set (heap_ st) x))) v') (fst (new_set (heap_ st) x)) (snd (new_set (heap_ st) x)) x I L FS eq_refl) as (A & B).
    apply (FIN (fst (new_set (heap_ st) x)) (EClf (Some (snd (new_set (heap_ st) x))) v')); auto.
    - cbn [view]. f_equal. apply (view_new _ _ x); auto. apply (f_x _ _ _ _ FS).
    - unfold o. cbn [step]. rewrite E, FT. destruct (c_alg a) eqn:CAL.
      + destruct (ST eq_refl) as (hs0 & HS). rewrite HS, T, RX. destruct (new_set (heap_ st) x). reflexivity.
      + rewrite T, RX. destruct (new_set (heap_ st) x). reflexivity. }
  destruct (trains w (set_fit_params (clf_view (heap_ st) ref a) kw) X y cf pc names (resolve st hm) cnopt) eqn:T.
  - destruct (c_alg a) eqn:CAL; [|apply TR; auto; discriminate].
    destruct (h_start st hm) as [hs0|e] eqn:HS; [apply TR; eauto|].
    assert (S : step w st o = (st, Some e)) by (unfold o; cbn [step]; rewrite E, FT, CAL, HS; reflexivity).
    assert (VR : v' = clf_view (heap_ st) ref a /\ failure r = Some e).
    { unfold fit in FT. rewrite CA, ?CAL in FT. rewrite (h_start_err _ _ HS) in FT. injection FT as <- <-. auto. }
    destruct VR as (-> & FR). unfold good_step, as_alone. rewrite S. cbn [fst snd target]. split; [|split]; auto; [apply stable_refl|].
    intros m' H. injection H as <-. intros v Hv. rewrite (AL v Hv). cbn [fst snd]. rewrite FR, Hv, (at_model _ _ _ _ E Hv). auto.
  - destruct (fit_untrained _ _ _ _ _ _ _ _ _ _ _ _ FT T) as (NF & RS). rewrite CA in RS.
    destruct (c_alg a) eqn:CAL.
    + destruct (h_start st hm) as [[h0 s0]|e] eqn:HS.
      2:{ assert (S : step w st o = (st, Some e)) by (unfold o; cbn [step]; rewrite E, FT, CAL, HS; reflexivity).
          assert (VR : v' = clf_view (heap_ st) ref a /\ failure r = Some e).
          { unfold fit in FT. rewrite CA, ?CAL in FT. rewrite (h_start_err _ _ HS) in FT. injection FT as <- <-. auto. }
          destruct VR as (-> & FR). unfold good_step, as_alone. rewrite S. cbn [fst snd target]. split; [|split]; auto; [apply stable_refl|].
          intros m' H. injection H as <-. intros v Hv. rewrite (AL v Hv). cbn [fst snd]. rewrite FR, Hv, (at_model _ _ _ _ E Hv). auto. }
      assert (S : step w st o = (set_model st h0 m (EClf (Some s0) v'), failure r)) by (unfold o; cbn [step]; rewrite E, FT, CAL, HS, T; reflexivity).
      assert (OK : (exists v, hm = HVal v) \/ hm = HModel m).
      { cbn [tidy o] in CL. destruct CL as [C | [C | [C | C]]]; auto.
        - exfalso. fold o in C. rewrite S in C. cbn [snd] in C. contradiction.
        - exfalso. destruct C as (ref' & a' & E' & CA'). rewrite E in E'. injection E' as <- <-. congruence. }
      pose proof (h_start_own m ref a hm E OK) as HO. rewrite HS in HO. destruct HO as (x & IX & GX & [FS | (-> & RF)]).
      * destruct (fresh_step st m (EClf (Some s0) v') h0 s0 x I L FS eq_refl) as (A & B). apply (FIN h0 (EClf (Some s0) v')); auto.
        cbn [view]. f_equal. apply (view_new _ _ x); auto.
      * destruct (attrs_step st m (EClf (Some s0) v') I) as (A & B); [cbn [ref_of]; congruence|]. apply (FIN (heap_ st) (EClf (Some s0) v')); auto.
        cbn [view]. f_equal. apply (view_new _ _ x); auto.
    + assert (S : step w st o = (set_model st (heap_ st) m (EClf ref v'), failure r)).
      { unfold o. cbn [step]. rewrite E, FT, CAL. rewrite T. destruct (h_start st hm) as [[? ?]|?]; reflexivity. }
      destruct (attrs_step st m (EClf ref v') I) as (A & B); [cbn [ref_of]; congruence|]. apply (FIN (heap_ st) (EClf ref v')); auto.
      cbn [view]. f_equal. unfold clf_view. apply with_rs_same. rewrite RS. reflexivity.
Qed.

Theorem step_tidy o : tidy w st o -> good_step w st o.
Proof.
  intros CL. destruct o.
  - apply good_newclf. - apply good_newrule. - apply good_newset; auto. - apply good_copy. - apply good_call. - apply good_recal. - apply good_recalset.
  - apply good_edit; auto. - apply good_init. - apply good_fit; auto.
Qed.
End Step.

Lemma inv_nothing : inv nothing.
Proof.
  constructor; cbn [nothing heap_ models].
  - split; intros s H; cbn in H; lia.
  - intros m s H. unfold ref_at in H. cbn [models] in H. destruct m; discriminate.
  - intros m m' s s' _ H. unfold ref_at in H. cbn [models] in H. destruct m; discriminate.
Qed.
Lemma run_inv w os : forall st, inv st -> tidy_run w st os -> inv (run w st os).
Proof. induction os as [|o t IH]; intros st I C; cbn [run tidy_run] in *; auto. destruct C as (C1 & C2). apply IH; auto. apply (step_tidy w st I o C1). Qed.
Lemma run_app w os os' st : run w st (os ++ os') = run w (run w st os) os'.
Proof. revert st; induction os as [|o t IH]; intros st; cbn [run app]; auto. Qed.
Lemma tidy_app w os os' : forall st, tidy_run w st (os ++ os') <-> tidy_run w st os /\ tidy_run w (run w st os) os'.
Proof. induction os as [|o t IH]; intros st; cbn [run app tidy_run]; [tauto|]. rewrite IH. tauto. Qed.
Lemma models_grow w st o : length (models st) <= length (models (fst (step w st o))).
Proof.
  unfold step. repeat (match goal with |- context [match ?x with _ => _ end] => destruct x end; cbn [fst models set_model add_model]);
    rewrite ?set_nth_length, ?app_length; cbn [length]; try lia; auto.
Qed.
Lemma run_others w os m : forall st, inv st -> tidy_run w st os -> m < length (models st) -> (forall o, In o os -> target o <> Some m) ->
  nth_error (model_views (run w st os)) m = nth_error (model_views st) m.
Proof.
  induction os as [|o t IH]; intros st I C L N; cbn [run tidy_run] in *; auto. destruct C as (C1 & C2).
  destruct (step_tidy w st I o C1) as (A & B & _). rewrite IH; auto.
  - apply (stable_others st _ (target o) B); auto. apply N. left; auto.
  - pose proof (models_grow w st o). lia.
  - intros o' H. apply N. right; auto.
Qed.
