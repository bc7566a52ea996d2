(** * Prop_Heap.v : C57, one model's life does not touch another's *)
From Verif Require Import HeapStep Prop_Fit Prop_FitModel Demo.
Open Scope nat_scope.

(** what a user sees of model m: predictions and probabilities for any data *)
Definition predictions (st : mstate) (m : nat) (X : data) (names : option (list pyval)) : option (res (list bool)) :=
  match nth_error (models st) m with
  | Some (EClf ref a) => Some (snd (clf_predict (clf_view (heap_ st) ref a) X names))
  | Some (ESet s) => match X with DFrame fr => Some (rs_predict (rs_rules (get_set (heap_ st) s)) fr) | _ => None end
  | None => None
  end.
Definition probabilities (st : mstate) (m : nat) (X : data) (names : option (list pyval)) : option (res (list (Q * Q) * list (list rule))) :=
  match nth_error (models st) m with
  | Some (EClf ref a) => Some (snd (clf_predict_proba (clf_view (heap_ st) ref a) X names))
  | Some (ESet s) => match X with DFrame fr => Some (rs_predict_proba (get_set (heap_ st) s) fr) | _ => None end
  | None => None
  end.
Lemma predictions_view st m X names : predictions st m X names = match nth_error (model_views st) m with
  | Some (VClf c) => Some (snd (clf_predict c X names))
  | Some (VSet x) => match X with DFrame fr => Some (rs_predict (rs_rules x) fr) | _ => None end
  | None => None end.
Proof. unfold predictions. rewrite nth_error_mviews. destruct (nth_error (models st) m) as [[? ?|?]|]; reflexivity. Qed.
Lemma probabilities_view st m X names : probabilities st m X names = match nth_error (model_views st) m with
  | Some (VClf c) => Some (snd (clf_predict_proba c X names))
  | Some (VSet x) => match X with DFrame fr => Some (rs_predict_proba x fr) | _ => None end
  | None => None end.
Proof. unfold probabilities. rewrite nth_error_mviews. destruct (nth_error (models st) m) as [[? ?|?]|]; reflexivity. Qed.

(** C57, partial: in every program that never puts one Rule object into two places and never has IREP.fit fail on an initial model
    given as an object, whatever is done to the other models (editing, recalibrating, fitting, initialising from this one, copying)
    leaves the predictions and probabilities of a model as they were. [before] is any history, e.g. one that ends by initialising or fitting
    model m from another model, or another one from m. *)
Theorem C57_others_untouched_partial : forall w before later m X names,
  tidy_run w nothing (before ++ later) -> m < length (models (run w nothing before)) -> (forall o, In o later -> target o <> Some m) ->
  predictions (run w nothing (before ++ later)) m X names = predictions (run w nothing before) m X names /\
  probabilities (run w nothing (before ++ later)) m X names = probabilities (run w nothing before) m X names.
Proof.
  intros w before later m X names T L N. apply tidy_app in T. destruct T as (T1 & T2). rewrite run_app.
  rewrite !predictions_view, !probabilities_view. rewrite (run_others w later m); auto. apply run_inv; auto. apply inv_nothing.
Qed.
Print Assumptions C57_others_untouched_partial.

(** C57, partial: in such a program an operation does to its model exactly what it does to that model as a value on its own (the
    theorems about single classifiers therefore apply to each model of the program) *)
Theorem C57_as_if_alone_partial : forall w before o m v,
  tidy_run w nothing (before ++ [o]) -> target o = Some m -> nth_error (model_views (run w nothing before)) m = Some v ->
  nth_error (model_views (run w nothing (before ++ [o]))) m = Some (fst (alone w (run w nothing before) o v)) /\
  snd (step w (run w nothing before) o) = snd (alone w (run w nothing before) o v).
Proof.
  intros w before o m v T TG V. apply tidy_app in T. destruct T as (T1 & T2). rewrite run_app. cbn [tidy_run run] in *. destruct T2 as (T2 & _).
  destruct (step_tidy w _ (run_inv w before nothing inv_nothing T1) o T2) as (_ & _ & A). apply (A m TG v V).
Qed.
Print Assumptions C57_as_if_alone_partial.

(** C57, partial: a classifier that was just initialised or successfully fitted, from whatever model, consists of new objects: no Rule object
    that existed before (in a model or in the user's hands) is part of it. *)
Definition rule_objects (st : mstate) (m : nat) : list nat :=
  match nth_error (models st) m with Some e => match ref_of e with Some s => refs (heap_ st) s | None => [] end | None => [] end.
Theorem C57_owns_new_rules_partial : forall w before o m,
  tidy_run w nothing (before ++ [o]) -> (exists X y cf pc names hm cn kw, o = OFit m X y cf pc names hm cn kw) \/ (exists hm f p, o = OInit m hm f p) ->
  snd (step w (run w nothing before) o) = None ->
  forall r, In r (rule_objects (run w nothing (before ++ [o])) m) -> length (hr (heap_ (run w nothing before))) <= r.
Proof.
  intros w before o m T K NE r IR. apply tidy_app in T. destruct T as (T1 & T2). rewrite run_app in IR. cbn [tidy_run run] in *.
  set (st := run w nothing before) in *. assert (I : inv st) by (apply run_inv; auto; apply inv_nothing).
  unfold rule_objects in IR. destruct K as [(X & y & cf & pc & names & hm & cn & kw & ->) | (hm & f & p & ->)]; cbn [step] in *.
  - destruct (nth_error (models st) m) as [[ref a|s]|] eqn:E; try discriminate. assert (L : m < length (models st)) by (eapply nth_lt; eauto).
    destruct (fit w (clf_view (heap_ st) ref a) X y cf pc names (resolve st hm) cn kw) as [v' rr] eqn:FT.
    assert (U : trains w (set_fit_params (clf_view (heap_ st) ref a) kw) X y cf pc names (resolve st hm) cn = false -> failure rr <> None).
    { intros TF. exact (proj1 (fit_untrained _ _ _ _ _ _ _ _ _ _ _ _ FT TF)). }
    assert (NEW : forall x, In r match nth_error (models (set_model st (fst (new_set (heap_ st) x)) m (EClf (Some (snd (new_set (heap_ st) x))) v'))) m with
        Some e => match ref_of e with Some s => refs (fst (new_set (heap_ st) x)) s | None => [] end | None => [] end -> length (hr (heap_ st)) <= r).
    { intros x H. cbn [models set_model] in H. rewrite set_nth_same in H by auto. cbn [ref_of] in H.
      apply (f_r _ _ _ _ (new_set_facts (heap_ st) x (i_wf _ I))). exact H. }
    assert (TT : trains w (set_fit_params (clf_view (heap_ st) ref a) kw) X y cf pc names (resolve st hm) cn = true -> (c_alg a = IREP_ -> exists hs, h_start st hm = Ok hs) -> exists x, c_rs v' = Some x).
    { intros TF ST. eapply fit_trains; eauto. intros A. destruct (ST A) as ((h0 & s0) & HS). eapply h_start_ok; eauto. }
    destruct (c_alg a) eqn:CA; destruct (h_start st hm) as [[h0 s0]|e0] eqn:HS; cbn [fst snd] in *; try discriminate;
      destruct (trains w (set_fit_params (clf_view (heap_ st) ref a) kw) X y cf pc names (resolve st hm) cn) eqn:TF; cbn [fst snd] in *; try (exfalso; apply U; auto; fail);
      (destruct TT as (x & RX); [auto | intros ?; eauto; discriminate |]; rewrite RX in *; specialize (NEW x); destruct (new_set (heap_ st) x) as [h1 s1] eqn:NS; cbn [fst snd heap_ set_model] in *; apply NEW; exact IR).
  - destruct (nth_error (models st) m) as [[ref a|s]|] eqn:E; try discriminate. assert (L : m < length (models st)) by (eapply nth_lt; eauto).
    pose proof (h_frommodel_facts st hm I) as FM. destruct (h_frommodel st hm) as [[h1 s]|e]; [|discriminate]. destruct FM as (x & _ & FS).
    cbn [fst snd heap_ models set_model] in IR. rewrite set_nth_same in IR by auto. cbn [ref_of] in IR. apply (f_r _ _ _ _ FS). exact IR.
Qed.
Print Assumptions C57_owns_new_rules_partial.

(** C57, partial: in such a program no Rule object is part of two models, or occurs twice in one *)
Theorem C57_no_rule_shared_partial : forall w os, tidy_run w nothing os ->
  forall m m', m <> m' -> forall r, In r (rule_objects (run w nothing os) m) -> ~ In r (rule_objects (run w nothing os) m').
Proof.
  intros w os T m m' N r. pose proof (run_inv w os nothing inv_nothing T) as I. unfold rule_objects.
  destruct (nth_error (models (run w nothing os)) m) as [e|] eqn:E; [|intros []]. destruct (ref_of e) as [s|] eqn:R; [|intros []].
  destruct (nth_error (models (run w nothing os)) m') as [e'|] eqn:E'; [|auto]. destruct (ref_of e') as [s'|] eqn:R'; [|auto].
  apply (i_apart _ I m m' s s' N); unfold ref_at; [rewrite E | rewrite E']; auto.
Qed.
Print Assumptions C57_no_rule_shared_partial.

(** ** Refutations *)
Definition small : frame := mkframe [s_ "u"] [mkrow 0 [s_ "a"]; mkrow 1 [s_ "b"]].
Definition small_y1 : option ydata := Some (YList [PInt 1; PInt 0]).
Definition small_y0 : option ydata := Some (YList [PInt 0; PInt 1]).
Definition recal_small (m : nat) (y : option ydata) : op := ORecal m (DFrame small) y None None false false.
(** two classifiers initialised from text; the same Rule object is added to both; recalibrating the second changes the first one's probabilities *)
Definition sharing : list op :=
  [ONewClf IREP_ default_hyper; OInit 0 (HVal MNone) (s_ "t") (PInt 1);
   ONewClf RIPPER_ default_hyper; OInit 1 (HVal MNone) (s_ "t") (PInt 1);
   ONewRule [c_ "u" "a"]; OEdit 0 (EAdd (AObj 0)); OEdit 1 (EAdd (AObj 0));
   OCall 0 (Predict (DFrame small) None); recal_small 0 small_y1].
Theorem C57_shared_rule_refuted : exists p q,
  probabilities (run w1 nothing sharing) 0 (DFrame small) None = Some (Ok p) /\
  probabilities (run w1 nothing (sharing ++ [recal_small 1 small_y0])) 0 (DFrame small) None = Some (Ok q) /\ fst p <> fst q /\
  target (recal_small 1 small_y0) = Some 1.
Proof.
  destruct (probabilities (run w1 nothing sharing) 0 (DFrame small) None) as [[p|]|] eqn:E1; [|exfalso; revert E1; vm_compute; discriminate..].
  destruct (probabilities (run w1 nothing (sharing ++ [recal_small 1 small_y0])) 0 (DFrame small) None) as [[q|]|] eqn:E2; [|exfalso; revert E2; vm_compute; discriminate..].
  exists p, q. split; auto. split; auto. split; [|reflexivity]. revert E1 E2. vm_compute. intros H1 H2. injection H1 as <-. injection H2 as <-. discriminate.
Qed.
(** a classifier whose IREP.fit failed shares the Ruleset object of the initial model: removing its rule changes the other's predictions *)
Definition failing : list op :=
  [ONewClf RIPPER_ default_hyper; OInit 0 (HVal (MStr ($"[[u=a]]"))) (s_ "t") (PInt 1);
   ONewClf IREP_ default_hyper; OFit 1 (DRows []) None None None None (HModel 0) true []].
Theorem C57_failed_fit_refuted :
  predictions (run w1 nothing failing) 0 (DFrame small) None = Some (Ok [true; false]) /\
  predictions (run w1 nothing (failing ++ [OEdit 1 (ERemoveAt 0)])) 0 (DFrame small) None = Some (Ok [false; false]).
Proof. split; vm_compute; reflexivity. Qed.

(** ** A program that meets the hypotheses: a classifier is fitted, a second one initialised from it, a third fitted from the second, a fourth copied;
    then the first is edited and recalibrated, and the second gets a Rule object of the user *)
Definition family : list op :=
  [ONewClf IREP_ default_hyper; OFit 0 (DRows people) (Some people_y) None None (Some [s_ "u"; s_ "v"]) (HVal MNone) true [(P_nbins, VOpt (Some 2%Z))];
   ONewClf RIPPER_ default_hyper; OInit 1 (HModel 0) (s_ "t") (PInt 1);
   ONewClf IREP_ default_hyper; OFit 2 (DRows people) (Some people_y) None None (Some [s_ "u"; s_ "v"]) (HModel 1) true [(P_nbins, VOpt (Some 2%Z))];
   OCopy 0].
Definition later_on : list op :=
  [OEdit 0 (EAdd (AVal (OStr ($"[u=b]")))); OEdit 0 (ERemoveAt 0); ONewRule [c_ "u" "q"]; OEdit 1 (EReplaceAt 0 (AObj 5))].
Definition texts (st : mstate) (m : nat) : option (list str) :=
  match nth_error (model_views st) m with Some (VClf c) => option_map (fun x => map rule_str (rs_rules x)) (c_rs c) | _ => None end.
(** a computable check of [in_use] *)
Definition in_useb (st : mstate) (r : nat) : bool := existsb (fun m => nmem r (rule_objects st m)) (seq 0 (length (models st))).
Lemma in_useb_ok st r : in_useb st r = false -> ~ in_use st r.
Proof.
  intros H (m & e & s & E & R & IN). assert (Q : in_useb st r = true); [|congruence]. unfold in_useb. rewrite existsb_exists. exists m. split.
  - apply in_seq. apply nth_lt in E. lia.
  - unfold rule_objects. rewrite E, R. apply nmem_In. exact IN.
Qed.
Example C57_nonvacuous :
  tidy_run w1 nothing (family ++ later_on) /\
  map (texts (run w1 nothing family)) [0; 1; 2; 3] = [Some [$"[v=>-1.0]"]; Some [$"[v=>-1.0]"]; Some [$"[v=>-1.0]"]; Some [$"[v=>-1.0]"]] /\
  map (texts (run w1 nothing (family ++ later_on))) [0; 1; 2; 3] = [Some [$"[u=b]"]; Some [$"[u=q]"]; Some [$"[v=>-1.0]"]; Some [$"[v=>-1.0]"]].
Proof.
  split; [|split; vm_compute; reflexivity].
  assert (N : snd (step w1 (run w1 nothing (firstn 5 family)) (nth 5 family (OCopy 0))) = None) by (vm_compute; reflexivity).
  assert (L : 5 < length (hr (heap_ (run w1 nothing (family ++ firstn 3 later_on))))) by (apply Nat.ltb_lt; vm_compute; reflexivity).
  assert (U : in_useb (run w1 nothing (family ++ firstn 3 later_on)) 5 = false) by (vm_compute; reflexivity).
  apply in_useb_ok in U. rewrite run_app in L, U.
  apply tidy_app. split; unfold family, later_on in *; cbn [tidy_run].
  - split; [exact Logic.I|]. split; [left; eexists; reflexivity|]. split; [exact Logic.I|]. split; [exact Logic.I|]. split; [exact Logic.I|].
    split; [right; right; left; exact N|]. split; exact Logic.I.
  - split; [intros a H; injection H as <-; exact Logic.I|]. split; [intros a H; discriminate|]. split; [exact Logic.I|].
    split; [intros a H; injection H as <-; split; [exact L | exact U] | exact Logic.I].
Qed.
(** and the two refuting programs break exactly the two conditions *)
Example C57_refutations_untidy : ~ tidy_run w1 nothing sharing /\ ~ tidy_run w1 nothing failing.
Proof.
  split.
  - intros H. apply (tidy_app w1 (firstn 6 sharing) (skipn 6 sharing)) in H. destruct H as (_ & (H & _)). specialize (H (AObj 0) eq_refl). destruct H as (_ & H).
    apply H. exists 0. eexists. eexists. split; [vm_compute; reflexivity|]. split; [reflexivity|]. vm_compute. left; reflexivity.
  - intros H. apply (tidy_app w1 (firstn 3 failing) (skipn 3 failing)) in H. destruct H as (_ & (H & _)). cbn [tidy skipn failing] in H.
    destruct H as [(v & H) | [H | [H | (ref & a & E & C)]]]; [discriminate | discriminate | revert H; vm_compute; discriminate | revert E C; vm_compute; intros E; injection E as <- <-; discriminate].
Qed.
