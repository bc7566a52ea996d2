(** * Prop_Passes.v : C103 -- once an optimisation pass of RIPPER changes nothing, k does not matter any more *)
From Verif Require Import PassFacts ClfFacts Demo Prop_Fit.
Open Scope nat_scope.

(** the classifier with another value of the hyperparameter k *)
Definition at_k (cl : clf) (k : nat) : clf := set_params cl [(P_k, VNat k)].
Lemma fit_params_k cl kw k : c_alg cl = RIPPER_ -> set_fit_params cl (kw ++ [(P_k, VNat k)]) = set_hyper cl (with_k (hyper_of cl kw) k).
Proof. intros A. unfold hyper_of, set_fit_params, set_params. rewrite A, filter_app, fold_left_app. reflexivity. Qed.
Lemma recalibrate_k cl h k K X y names ms rq d : clf_recalibrate (set_hyper cl (with_k h k)) X y names ms rq d =
  (at_k (fst (clf_recalibrate (set_hyper cl (with_k h K)) X y names ms rq d)) k, snd (clf_recalibrate (set_hyper cl (with_k h K)) X y names ms rq d)).
Proof.
  unfold clf_recalibrate. cbn [set_hyper c_cf c_pc c_bt c_rs c_hyper]. destruct (c_cf cl) as [f|]; [|reflexivity]. destruct (c_pc cl) as [p|]; [|reflexivity].
  destruct (if d then _ else _) as [bt|]; [|reflexivity]. destruct (preprocess_recalibrate X y f names bt) as [df|]; [|reflexivity].
  destruct (c_rs cl) as [x|]; [|reflexivity]. change (h_alpha (with_k h k)) with (h_alpha h). change (h_alpha (with_k h K)) with (h_alpha h).
  destruct (recalibrate_run _ _ _ _ _) as [x' o]. reflexivity.
Qed.
Lemma ripper_fit_k w cl h k K X y cf pc names init cnopt :
  (forall df f p bt x, preprocess_training (w_cut w) (h_nbins h) X y cf pc names = Ok (df, f, p, bt) -> frommodel init = Ok x ->
    ripper_trace (w_env w) (with_k h k) cnopt df f p x = ripper_trace (w_env w) (with_k h K) cnopt df f p x) ->
  ripper_fit w (set_hyper cl (with_k h k)) X y cf pc names init cnopt =
  (at_k (fst (ripper_fit w (set_hyper cl (with_k h K)) X y cf pc names init cnopt)) k, snd (ripper_fit w (set_hyper cl (with_k h K)) X y cf pc names init cnopt)).
Proof.
  intros TR. unfold ripper_fit. cbn [set_hyper c_hyper]. change (h_nbins (with_k h k)) with (h_nbins h). change (h_nbins (with_k h K)) with (h_nbins h).
  destruct (preprocess_training _ _ _ _ _ _ _) as [[[[df f] p] bt]|]; [|reflexivity]. specialize (TR df f p bt). destruct (frommodel init) as [x|]; [|reflexivity].
  rewrite (TR x eq_refl eq_refl). destruct (ripper_trace _ (with_k h K) _ _ _ _ _) as [lf [x1|er] ]; [|destruct lf; reflexivity]. cbv zeta.
  destruct (cols_without df f) as [feats|]; [|reflexivity].
  change (dedupe_trim (w_env w) (with_k h k) x1) with (dedupe_trim (w_env w) h x1). change (dedupe_trim (w_env w) (with_k h K) x1) with (dedupe_trim (w_env w) h x1).
  set (c0 := mkclf (c_alg cl) h (Some (dedupe_trim (w_env w) h x1)) (Some f) (Some p) (Some bt) (Some (selected_features (rs_rules x1))) (Some feats) (c_classes cl)).
  assert (EQ : forall m, set_rs (set_feats (set_rs (set_data (set_hyper cl (with_k h m)) f p bt) x1) (selected_features (rs_rules x1)) feats) (dedupe_trim (w_env w) h x1) = set_hyper c0 (with_k h m)) by reflexivity.
  rewrite !EQ, (recalibrate_k c0 h k K).
  destruct (clf_recalibrate (set_hyper c0 (with_k h K)) (DFrame df) None None (Some 1%Z) false false) as [c5 [u|er] ]; reflexivity.
Qed.

(** ** C103: if RIPPER.fit with k=K announces that it halts its optimisation at iteration j because nothing changed, then fit with any k from j on,
    smaller or larger than K, ends in the same way and leaves the same classifier, except for the stored value of k. *)
Theorem C103_halting_is_final : forall w cl X y cf pc names init cnopt kw K j k,
  c_alg cl = RIPPER_ -> fit_halts w cl X y cf pc names init cnopt (kw ++ [(P_k, VNat K)]) = Some j -> j <= k ->
  let a := fit w cl X y cf pc names init cnopt (kw ++ [(P_k, VNat k)]) in
  let b := fit w cl X y cf pc names init cnopt (kw ++ [(P_k, VNat K)]) in
  snd a = snd b /\ fst a = at_k (fst b) k.
Proof.
  intros w cl X y cf pc names init cnopt kw K j k A H L. cbv zeta. unfold fit, fit_halts in *. rewrite A in *. rewrite !(fit_params_k cl kw _ A) in *. cbn [set_hyper c_hyper] in H. change (h_nbins (with_k (hyper_of cl kw) K)) with (h_nbins (hyper_of cl kw)) in H.
  rewrite (ripper_fit_k w cl (hyper_of cl kw) k K); [split; reflexivity|]. intros df f p bt x PRE FM. rewrite PRE, FM in H. eapply ripper_halted; eauto.
Qed.
Print Assumptions C103_halting_is_final.

(** ** C103: the announcement itself: it names an iteration before the last, and it is made, for the same iteration, exactly with the values of k
    above that iteration. *)
Theorem C103_announcement : forall w cl X y cf pc names init cnopt kw K j,
  fit_halts w cl X y cf pc names init cnopt (kw ++ [(P_k, VNat K)]) = Some j -> 1 <= j /\ j < K /\
  forall k, fit_halts w cl X y cf pc names init cnopt (kw ++ [(P_k, VNat k)]) = if j <? k then Some j else None.
Proof.
  intros w cl X y cf pc names init cnopt kw K j H. destruct (c_alg cl) eqn:A; [unfold fit_halts in H; rewrite A in H; discriminate|].
  assert (EQ : forall k, fit_halts w cl X y cf pc names init cnopt (kw ++ [(P_k, VNat k)]) =
    match preprocess_training (w_cut w) (h_nbins (hyper_of cl kw)) X y cf pc names with
    | Err _ => None | Ok (df, f, p, _) => match frommodel init with Ok x => ripper_halts (w_env w) (with_k (hyper_of cl kw) k) cnopt df f p x | Err _ => None end end).
  { intros k. unfold fit_halts. rewrite A, (fit_params_k cl kw k A). reflexivity. }
  rewrite EQ in H. destruct (preprocess_training _ _ _ _ _ _ _) as [[[[df f] p] bt]|] eqn:PRE; [|discriminate]. destruct (frommodel init) as [x|]; [|discriminate].
  destruct (ripper_halts_k _ _ _ _ _ _ _ _ _ H) as (J1 & J2 & J3). split; auto. split; auto. intros k. rewrite EQ. apply J3.
Qed.
Print Assumptions C103_announcement.
(** the hypothesis is met: on these ten examples the first pass changes the rules and the second does not, so fit with k=5 halts at iteration 2;
    k=0 gives other rules (so k can matter before the halt), and k=1 happens not to be covered by the theorem *)
Definition noisy_ten : frame := mkframe [s_ "a"; s_ "b"; s_ "c"; s_ "class"] [mkrow 0 [s_ "0"; s_ "1"; s_ "1"; s_ "n"]; mkrow 1 [s_ "0"; s_ "1"; s_ "1"; s_ "p"]; mkrow 2 [s_ "0"; s_ "1"; s_ "1"; s_ "p"]; mkrow 3 [s_ "1"; s_ "0"; s_ "0"; s_ "n"]; mkrow 4 [s_ "1"; s_ "0"; s_ "1"; s_ "p"]; mkrow 5 [s_ "0"; s_ "1"; s_ "1"; s_ "p"]; mkrow 6 [s_ "1"; s_ "0"; s_ "0"; s_ "n"]; mkrow 7 [s_ "1"; s_ "0"; s_ "0"; s_ "n"]; mkrow 8 [s_ "0"; s_ "1"; s_ "1"; s_ "p"]; mkrow 9 [s_ "0"; s_ "0"; s_ "1"; s_ "n"]].
Definition noisy_fit (k : nat) := fit w1 (construct RIPPER_ []) (DFrame noisy_ten) None (Some (s_ "class")) (Some (s_ "p")) None MNone true ([] ++ [(P_k, VNat k)]).
Definition noisy_rules (k : nat) := option_map (fun r => map conds (rs_rules r)) (c_rs (fst (noisy_fit k))).
Example C103_nonvacuous :
  fit_halts w1 (construct RIPPER_ []) (DFrame noisy_ten) None (Some (s_ "class")) (Some (s_ "p")) None MNone true ([] ++ [(P_k, VNat 5)]) = Some 2 /\
  snd (noisy_fit 5) = Ok tt /\ noisy_rules 5 = Some [[c_ "c" "1"]] /\ noisy_rules 2 = noisy_rules 5 /\ noisy_rules 0 <> noisy_rules 5.
Proof. split; [vm_compute; reflexivity|]. split; [vm_compute; reflexivity|]. split; [vm_compute; reflexivity|]. split; vm_compute; [reflexivity|congruence]. Qed.
