(** * Prop_Repro.v : reproducibility of fit (C64), refitting (C66), failing fits (C67) *)
From Verif Require Import ClassFacts ReproFacts Demo Prop_Helpers Prop_Irep Prop_Ripper Prop_Fit.
Open Scope nat_scope.

(** C64. Two processes [u] and [v] fit the same classifier on the same data. pandas cuts the same bins, and shuffling a list of row labels
    with the given random_state does the same in both ([same_draws], ReproFacts.v); what may differ is what Python randomises per process:
    the hash of strings (here: any two hash functions with the same collisions, e.g. none), the iteration order of sets of values, and
    DataFrame.sample. With cn_optimize=True (the default), or when sets of values happen to be iterated alike, the outcome of fit is the
    same: the same exception, or the same value of every attribute. *)
Theorem C64_same_seed_same_model_partial : forall u v cl X y cf pc names init cnopt kwargs,
  (forall t l, shuf (w_env u) t l = shuf (w_env v) t l) -> (forall s n, e_split (w_env u) s n = e_split (w_env v) s n) ->
  w_cut u = w_cut v ->
  (forall x y, e_hash (w_env u) x = e_hash (w_env u) y <-> e_hash (w_env v) x = e_hash (w_env v) y) ->
  cnopt = true \/ (forall l, set_order (w_env u) l = set_order (w_env v) l) ->
  fit u cl X y cf pc names init cnopt kwargs = fit v cl X y cf pc names init cnopt kwargs.
Proof. intros u v cl X y cf pc names init cnopt kwargs S1 S2 C H O. apply fit_same; auto. split; auto. Qed.
Print Assumptions C64_same_seed_same_model_partial.

(** a second process: other hash, other set order *)
Definition env_b : env := mkenv (shuf env0) (e_split env0) (@rev pyval) (fun l => (- Z.of_nat (length l) - 7)%Z).
Definition w_b : world := mkworld env_b cut0 (fun n l => rev (firstn n l)).
Lemma env_b_ok : env_ok env_b.
Proof. destruct env0_ok as [A B C D E]. constructor; auto. intros l. cbn. symmetry. apply Permutation_rev. Qed.
Example C64_nonvacuous : env_ok (w_env w_b) /\
  (forall t l, shuf (w_env w1) t l = shuf (w_env w_b) t l) /\ (forall s n, e_split (w_env w1) s n = e_split (w_env w_b) s n) /\ w_cut w1 = w_cut w_b /\
  (forall x y, e_hash (w_env w1) x = e_hash (w_env w1) y <-> e_hash (w_env w_b) x = e_hash (w_env w_b) y) /\
  (exists cl' x, fit w_b irep_bins2 (DRows people) (Some people_y) None None (Some [s_ "u"; s_ "v"]) MNone true [] = (cl', Ok tt) /\ c_rs cl' = Some x /\
     map rule_str (rs_rules x) = [$"[v=>-1.0]"]).
Proof.
  split; [exact env_b_ok|]. split; [reflexivity|]. split; [reflexivity|]. split; [reflexivity|]. split.
  { intros x y. cbn. lia. }
  eexists _, _. split; [vm_compute; reflexivity|]. split; vm_compute; reflexivity.
Qed.

(** REFUTED for cn_optimize=False: two processes that differ only in the iteration order of a set of two strings learn different models from
    the same data with the same random_state (max_rules=1, no pruning); they predict differently. *)
Definition tied : list (list pyval) :=
  [[s_ "x"]; [s_ "x"]; [s_ "y"]; [s_ "y"]; [s_ "z"]; [s_ "x"]; [s_ "y"]; [s_ "z"]; [s_ "z"]; [s_ "z"]].
Definition tied_y : ydata := YList [PInt 1; PInt 1; PInt 1; PInt 1; PInt 1; PInt 0; PInt 0; PInt 0; PInt 0; PInt 0].
Definition one_rule (a : alg) : clf := construct a [(P_prune, VQ 0); (P_max_rules, VOpt (Some 1%Z)); (P_random_state, VOpt (Some 42%Z))].
Definition tied_fit (w : world) (a : alg) : clf * res unit := fit w (one_rule a) (DRows tied) (Some tied_y) None None (Some [s_ "f"]) MNone false [].
Theorem C64_set_order_refuted : exists u v,
  env_ok (w_env u) /\ env_ok (w_env v) /\
  (forall t l, shuf (w_env u) t l = shuf (w_env v) t l) /\ (forall s n, e_split (w_env u) s n = e_split (w_env v) s n) /\ w_cut u = w_cut v /\
  (forall l, e_hash (w_env u) l = e_hash (w_env v) l) /\
  forall a, exists cu cv, tied_fit u a = (cu, Ok tt) /\ tied_fit v a = (cv, Ok tt) /\
    snd (clf_predict cu (DRows [[s_ "x"]; [s_ "y"]]) (Some [s_ "f"])) = Ok [true; false] /\
    snd (clf_predict cv (DRows [[s_ "x"]; [s_ "y"]]) (Some [s_ "f"])) = Ok [false; true].
Proof.
  exists w1, (mkworld (mkenv (shuf env0) (e_split env0) (@rev pyval) (e_hash env0)) cut0 (w_sample w1)).
  split; [exact env0_ok|]. split; [destruct env_b_ok; constructor; auto|]. do 4 (split; [reflexivity|]).
  intros [|]; eexists _, _; (split; [vm_compute; reflexivity|]); (split; [vm_compute; reflexivity|]); split; vm_compute; reflexivity.
Qed.
Print Assumptions C64_set_order_refuted.

(** REFUTED for row labels that are strings, also with cn_optimize=True: the learners shuffle list(set of row labels), and the order of a set of
    strings changes with the process's hash seed. Process [v] is [u] with sets of labels iterated in another order [ord]. *)
Definition labelled : frame := mkframe [s_ "a"; s_ "b"; s_ "c"]
  [mkrow 0 [s_ "1"; s_ "0"; s_ "p"]; mkrow 1 [s_ "1"; s_ "0"; s_ "p"]; mkrow 2 [s_ "0"; s_ "1"; s_ "p"]; mkrow 3 [s_ "0"; s_ "0"; s_ "n"];
   mkrow 4 [s_ "0"; s_ "0"; s_ "n"]; mkrow 5 [s_ "0"; s_ "0"; s_ "n"]].
Theorem C64_text_labels_refuted : exists u v (ord : list nat -> list nat),
  (forall l, Permutation (ord l) l) /\ env_ok (w_env u) /\ env_ok (w_env v) /\
  (forall t l, shuf (w_env v) t l = shuf (w_env u) t (ord l)) /\ (forall s n, e_split (w_env u) s n = e_split (w_env v) s n) /\ w_cut u = w_cut v /\
  (forall l, e_hash (w_env u) l = e_hash (w_env v) l) /\ (forall l, set_order (w_env u) l = set_order (w_env v) l) /\
  exists cu cv, fit u (construct IREP_ []) (DFrame labelled) None (Some (s_ "c")) (Some (s_ "p")) None MNone true [] = (cu, Ok tt) /\
    fit v (construct IREP_ []) (DFrame labelled) None (Some (s_ "c")) (Some (s_ "p")) None MNone true [] = (cv, Ok tt) /\
    snd (clf_predict cu (DFrame labelled) None) = Ok [false; false; false; false; false; false] /\
    snd (clf_predict cv (DFrame labelled) None) = Ok [true; true; true; true; true; true].
Proof.
  exists w1, (mkworld (mkenv (fun t l => shuf env0 t (rev l)) (e_split env0) (set_order env0) (e_hash env0)) cut0 (w_sample w1)), (@rev nat).
  split; [intros l; symmetry; apply Permutation_rev|]. split; [exact env0_ok|].
  split. { destruct env0_ok as [A B C D E]. constructor; auto. intros t l. cbn. symmetry. apply Permutation_rev. }
  do 5 (split; [reflexivity|]). eexists _, _. split; [vm_compute; reflexivity|]. split; [vm_compute; reflexivity|]. split; vm_compute; reflexivity.
Qed.
Print Assumptions C64_text_labels_refuted.

(** C66. Refitting: whatever a classifier went through before (other data, edits, calibrations, failed fits), fit raises what a fresh classifier with the
    same hyperparameters raises, and if it succeeds all attributes are those of the fresh classifier's fit. *)
Theorem C66_refit_forgets : forall w cl X y cf pc names init cnopt kwargs,
  let fresh := mkclf (c_alg cl) (c_hyper cl) None None None None None None None in
  snd (fit w cl X y cf pc names init cnopt kwargs) = snd (fit w fresh X y cf pc names init cnopt kwargs) /\
  (snd (fit w cl X y cf pc names init cnopt kwargs) = Ok tt ->
   fst (fit w cl X y cf pc names init cnopt kwargs) = fst (fit w fresh X y cf pc names init cnopt kwargs)).
Proof.
  intros w cl X y cf pc names init cnopt kwargs fresh.
  destruct (fit w cl X y cf pc names init cnopt kwargs) as [a1 o1] eqn:E1. destruct (fit w fresh X y cf pc names init cnopt kwargs) as [a2 o2] eqn:E2.
  cbn [fst snd]. eapply fit_forgets; [| |exact E1|exact E2]; reflexivity.
Qed.
Print Assumptions C66_refit_forgets.
Definition fit_tied (w : world) (cl : clf) : clf * res unit := fit w cl (DRows tied) (Some tied_y) None None (Some [s_ "f"]) MNone true [].
Example C66_nonvacuous : exists c1 c2, fit w1 (construct IREP_ [(P_prune, VQ 0)]) (DFrame labelled) None (Some (s_ "c")) (Some (s_ "p")) None MNone true [] = (c1, Ok tt) /\
  fit_tied w1 c1 = (c2, Ok tt) /\ c_cf c1 = Some (s_ "c") /\ c_cf c2 = Some (s_ "Class") /\ fit_tied w1 (construct IREP_ [(P_prune, VQ 0)]) = (c2, Ok tt).
Proof.
  eexists _, _. split; [vm_compute; reflexivity|]. split; [vm_compute; reflexivity|]. split; [reflexivity|]. split; [vm_compute; reflexivity|]. vm_compute; reflexivity.
Qed.

(** C67. A fit that fails because no training table can be made of the data ([preprocess_training] raises: empty data, missing class column, label
    mismatch, positive class not inferable...) leaves alone every attribute except the hyperparameters named in the call and, for IREP, the rules. *)
Definition same_but_rules (a b : clf) : Prop :=
  c_alg a = c_alg b /\ c_cf a = c_cf b /\ c_pc a = c_pc b /\ c_bt a = c_bt b /\ c_sel a = c_sel b /\ c_feats a = c_feats b /\ c_classes a = c_classes b.
Theorem C67_bad_data_partial : forall w cl X y cf pc names init cnopt kwargs er,
  preprocess_training (w_cut w) (h_nbins (c_hyper (set_fit_params cl kwargs))) X y cf pc names = Err er ->
  exists e', snd (fit w cl X y cf pc names init cnopt kwargs) = Err e' /\
    same_but_rules (fst (fit w cl X y cf pc names init cnopt kwargs)) cl /\
    (c_alg cl = RIPPER_ -> c_rs (fst (fit w cl X y cf pc names init cnopt kwargs)) = c_rs cl) /\
    (kwargs = [] -> c_hyper (fst (fit w cl X y cf pc names init cnopt kwargs)) = c_hyper cl).
Proof.
  intros w cl X y cf pc names init cnopt kwargs er P. unfold fit, same_but_rules. destruct (c_alg cl) eqn:A.
  - destruct (irep_start init) as [x0|e0] eqn:I; [|exists e0; cbn; repeat (split; auto); discriminate].
    unfold irep_fit. rewrite I, P. exists er. cbn. repeat (split; auto); [discriminate|]. intros ->. reflexivity.
  - unfold ripper_fit. rewrite P. exists er. cbn. repeat (split; auto). intros ->. reflexivity.
Qed.
Print Assumptions C67_bad_data_partial.
Definition fitted_one (a : alg) : clf := fst (tied_fit w1 a).
Example C67_nonvacuous : snd (tied_fit w1 RIPPER_) = Ok tt /\
  preprocess_training (w_cut w1) (h_nbins (c_hyper (set_fit_params (fitted_one RIPPER_) []))) (DRows []) (Some tied_y) None None None = Err ValueError /\
  snd (clf_predict (fitted_one RIPPER_) (DRows [[s_ "x"]; [s_ "y"]]) (Some [s_ "f"])) = Ok [true; false].
Proof. split; [vm_compute; reflexivity|]. split; vm_compute; reflexivity. Qed.

(** REFUTED for IREP: a working classifier; fit on no data raises ValueError; afterwards the classifier silently predicts False everywhere. *)
Theorem C67_irep_failed_fit_refuted : exists cl,
  snd (clf_predict cl (DRows [[s_ "x"]; [s_ "y"]]) (Some [s_ "f"])) = Ok [true; false] /\
  exists cl', fit w1 cl (DRows []) (Some (YList [])) None None None MNone true [] = (cl', Err ValueError) /\
    snd (clf_predict cl' (DRows [[s_ "x"]; [s_ "y"]]) (Some [s_ "f"])) = Ok [false; false].
Proof.
  exists (fitted_one IREP_). split; [vm_compute; reflexivity|]. eexists. split; [vm_compute; reflexivity|]. vm_compute. reflexivity.
Qed.
Print Assumptions C67_irep_failed_fit_refuted.
(** REFUTED for RIPPER: fit with an initial_model that is not a model raises AttributeError, but the positive class and class feature of the failed call stay,
    so that the old rules are now scored against the other class. *)
Theorem C67_ripper_failed_fit_refuted : exists cl,
  snd (clf_score score_accuracy cl (DFrame (mkframe [s_ "f"] [mkrow 0 [s_ "x"]; mkrow 1 [s_ "y"]])) (YList [PInt 1; PInt 0])) = Ok (Some (2#2)) /\
  exists cl', fit w1 cl (DRows tied) (Some tied_y) None (Some (PInt 0)) (Some [s_ "f"]) MOther true [] = (cl', Err AttributeError) /\
    snd (clf_score score_accuracy cl' (DFrame (mkframe [s_ "f"] [mkrow 0 [s_ "x"]; mkrow 1 [s_ "y"]])) (YList [PInt 1; PInt 0])) = Ok (Some (0#2)).
Proof.
  exists (fitted_one RIPPER_). split; [vm_compute; reflexivity|]. eexists. split; [vm_compute; reflexivity|]. vm_compute. reflexivity.
Qed.
Print Assumptions C67_ripper_failed_fit_refuted.
(** REFUTED for RIPPER, harder: a refit that raises inside an optimisation pass has already replaced the rules by those of its first stage. The call
    raises, and the classifier is left with half-trained rules about the new table but the old table's selected_features_: it can predict neither. *)
Theorem C67_half_trained_refuted : exists cl,
  option_map (fun x => map rule_str (rs_rules x)) (c_rs cl) = Some [$"[f=x]"] /\
  exists cl', fit w1 cl (DFrame four) None (Some (s_ "class")) (Some (s_ "p")) None MNone true [(P_max_rules, VOpt None)] = (cl', Err AttributeError) /\
    option_map (fun x => map rule_str (rs_rules x)) (c_rs cl') = Some [$"[b=2]"] /\
    snd (clf_predict cl' (DFrame four) None) = Err IndexError /\
    snd (clf_predict cl' (DRows [[s_ "x"]; [s_ "y"]]) (Some [s_ "f"])) = Err KeyError.
Proof.
  exists (fitted_one RIPPER_). split; [vm_compute; reflexivity|]. eexists. split; [vm_compute; reflexivity|]. split; [|split]; vm_compute; reflexivity.
Qed.
Print Assumptions C67_half_trained_refuted.
