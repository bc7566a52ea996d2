(** * Classifier.v : the classifier object (abstract_ruleset_classifier.py, irep.py:94-235, ripper.py:115-409, interpret.py).
    A classifier is a record of its attributes; an API call maps it to the attributes afterwards and the value returned or
    the exception raised. Objects are values here (deep copies are the identity); sharing of objects is in Heap.v. *)
From Verif Require Export Preprocess Ripper.

(** The outside world: random choices and hashes ([env]), the cut points chosen by pandas, [DataFrame.sample] *)
(* what the code does not determine: random numbers, hashes, pandas' edges (discretize.py:141-163), DataFrame.sample (abstract_ruleset_classifier.py:334) *)
Record world := mkworld {
  w_env : env;
  w_cut : Z -> list pyval -> list edge;
  w_sample : nat -> list row -> list row }.

(* irep.py:23, ripper.py:27: the two classifiers *)
Inductive alg := IREP_ | RIPPER_.

(** The attributes. [None] = the attribute does not exist yet. [c_classes] is classes_. *)
(* the attributes set in abstract_ruleset_classifier.py:25-65, 362-367, irep.py:94-235, ripper.py:115-390 *)
Record clf := mkclf {
  c_alg : alg; c_hyper : hyper;
  c_rs : option ruleset; c_cf : option pyval; c_pc : option pyval; c_bt : option bin_transformer;
  c_sel : option (list pyval); c_feats : option (list pyval); c_classes : option (list pyval) }.
(* abstract_ruleset_classifier.py:25-65 [__init__] *)
Definition new_clf (a : alg) (h : hyper) : clf := mkclf a h None None None None None None None.

(* self.ruleset_ = ... *)
Definition set_rs (cl : clf) (x : ruleset) : clf :=
  mkclf (c_alg cl) (c_hyper cl) (Some x) (c_cf cl) (c_pc cl) (c_bt cl) (c_sel cl) (c_feats cl) (c_classes cl).
(* self.bin_transformer_ = ... *)
Definition set_bt (cl : clf) (b : bin_transformer) : clf :=
  mkclf (c_alg cl) (c_hyper cl) (c_rs cl) (c_cf cl) (c_pc cl) (Some b) (c_sel cl) (c_feats cl) (c_classes cl).
(* self.classes_ = ... *)
Definition set_classes (cl : clf) (l : list pyval) : clf :=
  mkclf (c_alg cl) (c_hyper cl) (c_rs cl) (c_cf cl) (c_pc cl) (c_bt cl) (c_sel cl) (c_feats cl) (Some l).
(* self.class_feat, self.pos_class, self.bin_transformer_ = ..., irep.py:172-177, ripper.py:195-200 *)
Definition set_data (cl : clf) (f p : pyval) (b : bin_transformer) : clf :=
  mkclf (c_alg cl) (c_hyper cl) (c_rs cl) (Some f) (Some p) (Some b) (c_sel cl) (c_feats cl) (c_classes cl).
(* self.selected_features_, self.trainset_features_ = ... *)
Definition set_feats (cl : clf) (sel feats : list pyval) : clf :=
  mkclf (c_alg cl) (c_hyper cl) (c_rs cl) (c_cf cl) (c_pc cl) (c_bt cl) (Some sel) (Some feats) (c_classes cl).
(* setattr of hyperparameters *)
Definition set_hyper (cl : clf) (h : hyper) : clf :=
  mkclf (c_alg cl) h (c_rs cl) (c_cf cl) (c_pc cl) (c_bt cl) (c_sel cl) (c_feats cl) (c_classes cl).
(* self.ruleset_.rules = ... *)
Definition set_rules (x : ruleset) (l : list rule) : ruleset := mkruleset l (rs_possible x) (rs_uncov x).

(** reading an attribute *)
(* self.x of an attribute that may not exist *)
Definition attr {A} (o : option A) : res A := match o with Some a => Ok a | None => Err AttributeError end.

(** ** Models passed by the user (initial_model, init_ruleset) *)
(* initial_model (irep.py:94-153), the argument of init_ruleset (abstract_ruleset_classifier.py:362-367) *)
Inductive model_arg :=
| MNone | MRuleset (x : ruleset) | MStr (s : str)
| MClf (fitted : option ruleset)   (* another classifier, fitted or not *)
| MSeq (items : list obj)          (* list / tuple *)
| MOther.                          (* some other truthy object *)
(** [not model] *)
(* abstract_ruleset_classifier.py:401, irep.py:153 *)
Definition falsy (m : model_arg) : bool :=
  match m with
  | MNone => true | MRuleset x => match rs_rules x with [] => true | _ => false end
  | MStr s => match s with [] => true | _ => false end
  | MSeq l => match l with [] => true | _ => false end
  | _ => false
  end.
(** abstract_ruleset_classifier.py:399-412 [_ruleset_frommodel] *)
Definition frommodel (m : model_arg) : res ruleset :=
  if falsy m then Ok (Ruleset_ [])
  else match m with
       | MRuleset x => Ok x
       | MStr s => l <- ruleset_fromstr s ;; Ok (Ruleset_ l)
       | MClf o => attr o
       | _ => Err AttributeError
       end.
(** irep.py:153: [Ruleset() if not initial_model else asruleset(initial_model)] (base.py:533-555) *)
Definition irep_start (m : model_arg) : res ruleset :=
  if falsy m then Ok (Ruleset_ [])
  else match m with
       | MRuleset x => Ok x
       | MStr s => l <- ruleset_fromstr s ;; Ok (Ruleset_ l)
       | MClf (Some x) => Ok x
       | MClf None => Ok (Ruleset_ [])
       | MSeq l => r <- asruleset (OSeq l) ;; Ok (Ruleset_ r)
       | _ => Err TypeError
       end.

(** ** Recalibration (abstract_ruleset_classifier.py:212-265, base_functions.py:288-365), with what is left behind when it raises *)

(** base_functions.py:331-340: rules are updated one after the other, in place *)
Fixpoint stats_run (alpha : Q) (fr : frame) (cf pc : pyval) (done todo : list rule) : list rule * res unit :=
  match todo with
  | [] => (done, Ok tt)
  | r :: t => match rule_class_stats alpha fr cf pc r with
              | Ok r' => stats_run alpha fr cf pc (done ++ [r']) t
              | Err e => (done ++ r :: t, Err e)
              end
  end.
(* base_functions.py:288-365 [recalibrate_proba] *)
Definition recalibrate_run (ms : option Z) (rm : bool) (alpha : Q) (x : ruleset) (fr : frame) (cf pc : pyval) : ruleset * res unit :=
  match check_features fr (selected_features (rs_rules x)) with
  | Err e => (x, Err e)
  | Ok _ => match recalibrate_min ms rm alpha x fr cf pc with
            | Ok x' => (x', Ok tt)
            | Err e => (set_rules x (fst (stats_run alpha fr cf pc [] (rs_rules x))), Err e)
            end
  end.

(* abstract_ruleset_classifier.py:212-265 [recalibrate_proba] *)
Definition clf_recalibrate (cl : clf) (X : data) (y : option ydata) (names : option (list pyval))
    (min_samples : option Z) (require_min : bool) (discretize : bool) : clf * res unit :=
  match c_cf cl, c_pc cl with
  | Some f, Some p =>
      match (if discretize then b <- attr (c_bt cl) ;; Ok (Some b) else Ok None) with
      | Err e => (cl, Err e)
      | Ok bt => match preprocess_recalibrate X y f names bt with
                 | Err e => (cl, Err e)
                 | Ok df => match c_rs cl with
                            | None => (cl, Err AttributeError)
                            | Some x => let '(x', o) := recalibrate_run min_samples require_min (h_alpha (c_hyper cl)) x df f p in (set_rs cl x', o)
                            end
                 end
      end
  | _, _ => (cl, Err AttributeError)
  end.

(** ** fit *)

(* irep.py:221, ripper.py:376: df.drop(class_feat, axis=1).columns *)
Definition cols_without (df : frame) (f : pyval) : res (list pyval) := x <- drop_col df f ;; Ok (fcols x).

(** irep.py:232-233, ripper.py:379-380: duplicates removed, then trimmed *)
Definition dedupe_trim (e : env) (h : hyper) (x : ruleset) : ruleset :=
  set_rules x (trim_conds (h_max_total_conds h) (remove_duplicates (e_hash e) (rs_rules x))).

(** irep.py:94-235 [IREP.fit] *)
Definition irep_fit (w : world) (cl : clf) (X : data) (y : option ydata) (cf pc : option pyval) (names : option (list pyval))
    (init : model_arg) (cnopt : bool) : clf * res unit :=
  let h := c_hyper cl in let e := w_env w in
  match irep_start init with
  | Err er => (cl, Err er)
  | Ok x0 =>
  let cl1 := set_rs cl x0 in
  match preprocess_training (w_cut w) (h_nbins h) X y cf pc names with
  | Err er => (cl1, Err er)
  | Ok (df, f, p, bt) =>
  let cl2 := set_data cl1 f p bt in
  match (x <- frommodel init ;; irep_train e h cnopt df f p x) with
  | Err er => (cl2, Err er)
  | Ok x1 =>
  let cl3 := set_rs cl2 x1 in
  match cols_without df f with
  | Err er => (cl3, Err er)
  | Ok feats =>
  let cl4 := set_feats cl3 (selected_features (rs_rules x1)) feats in
  let '(cl5, o) := clf_recalibrate cl4 (DFrame df) None None (Some 1%Z) false false in
  match o with
  | Err er => (cl5, Err er)
  | Ok _ =>
  let cl6 := set_classes cl5 [PInt 0; PInt 1] in
  match c_rs cl6 with
  | None => (cl6, Err AttributeError)
  | Some x2 => (set_rs cl6 (dedupe_trim e h x2), Ok tt)
  end end end end end end.

(** ripper.py:115-390 [RIPPER.fit]. If training raises, ruleset_ holds the ruleset assigned last (line 214/228: after stage 1; 311: after each
    optimisation pass; 1140/1180: after stage 3), or what it held before if stage 1 raised. *)
Definition keep_rs (cl : clf) (o : option ruleset) : clf := match o with Some x => set_rs cl x | None => cl end.
(* ripper.py:115-390 [RIPPER.fit] *)
Definition ripper_fit (w : world) (cl : clf) (X : data) (y : option ydata) (cf pc : option pyval) (names : option (list pyval))
    (init : model_arg) (cnopt : bool) : clf * res unit :=
  let h := c_hyper cl in let e := w_env w in
  match preprocess_training (w_cut w) (h_nbins h) X y cf pc names with
  | Err er => (cl, Err er)
  | Ok (df, f, p, bt) =>
  let cl2 := set_data cl f p bt in
  match (match frommodel init with Ok x => ripper_trace e h cnopt df f p x | Err er => (None, Err er) end) with
  | (lf, Err er) => (keep_rs cl2 lf, Err er)
  | (_, Ok x1) =>
  let cl3 := set_rs cl2 x1 in
  match cols_without df f with
  | Err er => (cl3, Err er)
  | Ok feats =>
  let cl4 := set_rs (set_feats cl3 (selected_features (rs_rules x1)) feats) (dedupe_trim e h x1) in
  let '(cl5, o) := clf_recalibrate cl4 (DFrame df) None None (Some 1%Z) false false in
  match o with
  | Err er => (cl5, Err er)
  | Ok _ => (set_classes cl5 [PInt 0; PInt 1], Ok tt)
  end end end end.

(** ** Hyperparameters *)
(* values of hyperparameters *)
Inductive pvalue := VQ (q : Q) | VZ (z : Z) | VNat (n : nat) | VOpt (o : option Z).
(* names of hyperparameters *)
Inductive param := P_prune | P_nbins | P_max_rules | P_min_rule_samples | P_min_ruleset_samples | P_max_rule_conds
  | P_max_total_conds | P_alpha | P_random_state | P_verbosity | P_k | P_dl.
(** abstract_ruleset_classifier.py:41-51 [VALID_HYPERPARAMETERS] and ripper.py:96 *)
Definition valid_params (a : alg) : list param :=
  [P_prune; P_nbins; P_max_rules; P_min_ruleset_samples; P_max_rule_conds; P_max_total_conds; P_alpha; P_random_state; P_verbosity]
  ++ match a with IREP_ => [] | RIPPER_ => [P_k; P_dl] end.
(* getattr, abstract_ruleset_classifier.py:390-392 *)
Definition param_value (h : hyper) (p : param) : pvalue :=
  match p with
  | P_prune => VQ (h_prune h) | P_nbins => VOpt (h_nbins h) | P_max_rules => VOpt (h_max_rules h)
  | P_min_rule_samples => VOpt (h_min_rule_samples h) | P_min_ruleset_samples => VOpt (h_min_ruleset_samples h)
  | P_max_rule_conds => VOpt (h_max_rule_conds h) | P_max_total_conds => VOpt (h_max_total_conds h)
  | P_alpha => VQ (h_alpha h) | P_random_state => VOpt (h_random_state h) | P_verbosity => VNat (h_verbosity h)
  | P_k => VNat (h_k h) | P_dl => VZ (h_dl h)
  end.
(** abstract_ruleset_classifier.py:390-392 [get_params], ripper.py:1187-1188 *)
Definition get_params (cl : clf) : list (param * pvalue) := map (fun p => (p, param_value (c_hyper cl) p)) (valid_params (c_alg cl)).
(** setattr(self, name, value), for a value of the parameter's type *)
(* setattr, abstract_ruleset_classifier.py:394-397 *)
Definition set_param (h : hyper) (p : param) (v : pvalue) : hyper :=
  match p, v with
  | P_prune, VQ q => mkhyper q (h_nbins h) (h_max_rules h) (h_min_rule_samples h) (h_min_ruleset_samples h) (h_max_rule_conds h) (h_max_total_conds h) (h_alpha h) (h_random_state h) (h_verbosity h) (h_k h) (h_dl h)
  | P_nbins, VOpt o => mkhyper (h_prune h) o (h_max_rules h) (h_min_rule_samples h) (h_min_ruleset_samples h) (h_max_rule_conds h) (h_max_total_conds h) (h_alpha h) (h_random_state h) (h_verbosity h) (h_k h) (h_dl h)
  | P_max_rules, VOpt o => mkhyper (h_prune h) (h_nbins h) o (h_min_rule_samples h) (h_min_ruleset_samples h) (h_max_rule_conds h) (h_max_total_conds h) (h_alpha h) (h_random_state h) (h_verbosity h) (h_k h) (h_dl h)
  | P_min_rule_samples, VOpt o => mkhyper (h_prune h) (h_nbins h) (h_max_rules h) o (h_min_ruleset_samples h) (h_max_rule_conds h) (h_max_total_conds h) (h_alpha h) (h_random_state h) (h_verbosity h) (h_k h) (h_dl h)
  | P_min_ruleset_samples, VOpt o => mkhyper (h_prune h) (h_nbins h) (h_max_rules h) (h_min_rule_samples h) o (h_max_rule_conds h) (h_max_total_conds h) (h_alpha h) (h_random_state h) (h_verbosity h) (h_k h) (h_dl h)
  | P_max_rule_conds, VOpt o => mkhyper (h_prune h) (h_nbins h) (h_max_rules h) (h_min_rule_samples h) (h_min_ruleset_samples h) o (h_max_total_conds h) (h_alpha h) (h_random_state h) (h_verbosity h) (h_k h) (h_dl h)
  | P_max_total_conds, VOpt o => mkhyper (h_prune h) (h_nbins h) (h_max_rules h) (h_min_rule_samples h) (h_min_ruleset_samples h) (h_max_rule_conds h) o (h_alpha h) (h_random_state h) (h_verbosity h) (h_k h) (h_dl h)
  | P_alpha, VQ q => mkhyper (h_prune h) (h_nbins h) (h_max_rules h) (h_min_rule_samples h) (h_min_ruleset_samples h) (h_max_rule_conds h) (h_max_total_conds h) q (h_random_state h) (h_verbosity h) (h_k h) (h_dl h)
  | P_random_state, VOpt o => mkhyper (h_prune h) (h_nbins h) (h_max_rules h) (h_min_rule_samples h) (h_min_ruleset_samples h) (h_max_rule_conds h) (h_max_total_conds h) (h_alpha h) o (h_verbosity h) (h_k h) (h_dl h)
  | P_verbosity, VNat n => mkhyper (h_prune h) (h_nbins h) (h_max_rules h) (h_min_rule_samples h) (h_min_ruleset_samples h) (h_max_rule_conds h) (h_max_total_conds h) (h_alpha h) (h_random_state h) n (h_k h) (h_dl h)
  | P_k, VNat n => mkhyper (h_prune h) (h_nbins h) (h_max_rules h) (h_min_rule_samples h) (h_min_ruleset_samples h) (h_max_rule_conds h) (h_max_total_conds h) (h_alpha h) (h_random_state h) (h_verbosity h) n (h_dl h)
  | P_dl, VZ z => mkhyper (h_prune h) (h_nbins h) (h_max_rules h) (h_min_rule_samples h) (h_min_ruleset_samples h) (h_max_rule_conds h) (h_max_total_conds h) (h_alpha h) (h_random_state h) (h_verbosity h) (h_k h) z
  | _, _ => h
  end.
(** abstract_ruleset_classifier.py:25-37, ripper.py:30-42: the constructors' defaults *)
Definition default_hyper : hyper := mkhyper (33#100) (Some 10%Z) None None None None None 1 None 0 2 64.
(** calling the constructor with keyword arguments (line 53: prune_size None/0 is stored as 0) *)
(* abstract_ruleset_classifier.py:25-65, irep.py:26-84, ripper.py:30-98 [__init__] *)
Definition construct (a : alg) (kwargs : list (param * pvalue)) : clf :=
  new_clf a (fold_left (fun h pv => set_param h (fst pv) (snd pv)) kwargs default_hyper).
(** abstract_ruleset_classifier.py:394-397, ripper.py:1190-1194 [set_params] *)
Definition set_params (cl : clf) (kwargs : list (param * pvalue)) : clf :=
  set_hyper cl (fold_left (fun h pv => set_param h (fst pv) (snd pv)) kwargs (c_hyper cl)).
(* equality of parameter names *)
Definition param_eqb (p q : param) : bool :=
  match p, q with
  | P_prune, P_prune | P_nbins, P_nbins | P_max_rules, P_max_rules | P_min_rule_samples, P_min_rule_samples
  | P_min_ruleset_samples, P_min_ruleset_samples | P_max_rule_conds, P_max_rule_conds | P_max_total_conds, P_max_total_conds
  | P_alpha, P_alpha | P_random_state, P_random_state | P_verbosity, P_verbosity | P_k, P_k | P_dl, P_dl => true
  | _, _ => false
  end.
(** abstract_ruleset_classifier.py:421-434 [_set_deprecated_fit_params]: keyword arguments of fit; names that are not in
    VALID_HYPERPARAMETERS are ignored *)
Definition set_fit_params (cl : clf) (kwargs : list (param * pvalue)) : clf :=
  set_params cl (filter (fun pv => existsb (param_eqb (fst pv)) (valid_params (c_alg cl))) kwargs).

(** fit with keyword arguments. irep.py:153-160: the initial model is looked at before the keywords are stored. *)
Definition fit (w : world) (cl : clf) (X : data) (y : option ydata) (cf pc : option pyval) (names : option (list pyval))
    (init : model_arg) (cnopt : bool) (kwargs : list (param * pvalue)) : clf * res unit :=
  match c_alg cl with
  | IREP_ => match irep_start init with
             | Err er => (cl, Err er)
             | Ok _ => irep_fit w (set_fit_params cl kwargs) X y cf pc names init cnopt
             end
  | RIPPER_ => ripper_fit w (set_fit_params cl kwargs) X y cf pc names init cnopt
  end.

(** ** Prediction *)

(** abstract_ruleset_classifier.py:414-419 [_ensure_has_bin_transformer]: the empty transformer is stored before
    construct_from_ruleset (whose result is dropped) may raise *)
Definition ensure_bt (cl : clf) : clf * res bin_transformer :=
  match c_bt cl with
  | Some b => (cl, Ok b)
  | None => match c_rs cl with
            | None => (set_bt cl bt_empty, Err AttributeError)
            | Some x => (set_bt cl bt_empty,
                         match construct_from_ruleset (rs_rules x) with Ok _ => Ok bt_empty | Err e => Err e end)
            end
  end.

(** lines 123-135: the preprocessed prediction frame *)
(* abstract_ruleset_classifier.py:123-135 *)
Definition prediction_frame (cl : clf) (bt : bin_transformer) (X : data) (names : option (list pyval)) : res frame :=
  f <- attr (c_cf cl) ;; _ <- attr (c_pc cl) ;; sel <- attr (c_sel cl) ;; _ <- attr (c_feats cl) ;;
  preprocess_prediction X f names sel bt.

(** lines 92-137 [predict] without and with reasons *)
(* abstract_ruleset_classifier.py:92-137 [predict] *)
Definition clf_predict (cl : clf) (X : data) (names : option (list pyval)) : clf * res (list bool) :=
  match c_rs cl with
  | None => (cl, Err AttributeError)
  | Some x => let '(cl', b) := ensure_bt cl in
              (cl', bt <- b ;; df <- prediction_frame cl' bt X names ;; rs_predict (rs_rules x) df)
  end.
(* abstract_ruleset_classifier.py:92-137 [predict] with give_reasons=True *)
Definition clf_predict_reasons (cl : clf) (X : data) (names : option (list pyval)) : clf * res (list bool * list (list rule)) :=
  match c_rs cl with
  | None => (cl, Err AttributeError)
  | Some x => let '(cl', b) := ensure_bt cl in
              (cl', bt <- b ;; df <- prediction_frame cl' bt X names ;; rs_predict_reasons (rs_rules x) df)
  end.

(** lines 85-90 [out_model]: the text printed *)
(* abstract_ruleset_classifier.py:85-90 [out_model] *)
Definition out_model (cl : clf) : str := match c_rs cl with Some x => rs_pretty (rs_rules x) | None => $"no model fitted" end.

(** abstract_ruleset_classifier.py:139-161 [score] (ripper.py:392-409 likewise) with any metric *)
Definition clf_score {A} (metric : list bool -> list bool -> res A) (cl : clf) (X : data) (y : ydata) : clf * res A :=
  let '(cl', o) := clf_predict cl X None in
  (cl', preds <- o ;; p <- attr (c_pc cl) ;; metric (map (fun v => py_eq v p) (y_vals y)) preds).

(** lines 163-210 [predict_proba]: no transformer is created; classes_ is overwritten before the ruleset predicts *)
(* abstract_ruleset_classifier.py:163-210 [predict_proba] *)
Definition clf_predict_proba (cl : clf) (X : data) (names : option (list pyval)) : clf * res (list (Q * Q) * list (list rule)) :=
  match c_rs cl with
  | None => (cl, Err AttributeError)
  | Some x =>
      match (bt <- attr (c_bt cl) ;; df <- prediction_frame cl bt X names ;; p <- attr (c_pc cl) ;; Ok (df, p)) with
      | Err e => (cl, Err e)
      | Ok (df, p) => (set_classes cl [PStr ($"not " ++ py_str p); p], rs_predict_proba x df)
      end
  end.

(** lines 267-355 [rule_stats]: one line per rule. [ex]: the examples frame when n_examples is given. *)
(* abstract_ruleset_classifier.py:267-355 [rule_stats]: one line of the result *)
Record stat_line := mkline { l_idx : nat; l_str : str; l_coverage : Q; l_n : nat;
  l_perf : option (option Q * option Q * option Q) (* precision, recall, F1; absent without y *) ;
  l_examples : option frame }.

(** lines 323-337: the examples of one rule. The label column is looked up by index label; if a covered label occurs twice in the data
    pandas raises ValueError. *)
(* abstract_ruleset_classifier.py:323-337 *)
Definition examples_of (w : world) (cf : pyval) (df covered : frame) (y : option (list pyval)) (n : Z) : res frame :=
  c <- (match y with
        | None => Ok covered
        | Some ys =>
            if forallb (fun r => length (filter (fun r' => rlab r' =? rlab r) (frows df)) =? 1) (frows covered)
            then Ok (put_col covered cf (map (fun r => lookup_label (labels (frows df)) ys (rlab r)) (frows covered)))
            else Err ValueError
        end) ;;
  if (n =? -1)%Z then Ok c
  else if (0 <? n)%Z then Ok (with_rows c (w_sample w (Nat.min (Z.to_nat n) (length (frows c))) (frows c)))
  else Err ValueError.

(* abstract_ruleset_classifier.py:301-337: the body of the loop *)
Definition stat_of (w : world) (cf pc : pyval) (df : frame) (y : option (list pyval)) (n_examples : option Z) (i : nat) (r : rule)
  : res stat_line :=
  covered <- rule_covers r df ;;
  let preds := map (fun rw => nmem (rlab rw) (labels (frows covered))) (frows df) in
  let n := count_true preds in
  perf <- (match y with
           | None => Ok None
           | Some ys =>
               let actuals := map (fun v => py_eq v pc) ys in
               p <- score_precision actuals preds ;;
               rc <- score_recall actuals preds ;;
               Ok (Some (p, rc, f1_of p rc))
           end) ;;
  ex <- (match n_examples with None => Ok None | Some k => c <- examples_of w cf df covered y k ;; Ok (Some c) end) ;;
  Ok (mkline i (rule_str r) (qdiv n (length (frows df))) n perf ex).

(* abstract_ruleset_classifier.py:267-355 [rule_stats] *)
Definition clf_rule_stats (w : world) (cl : clf) (X : data) (y : option ydata) (n_examples : option Z) (names : option (list pyval))
  : clf * res (list stat_line) :=
  match c_rs cl with
  | None => (cl, Err AttributeError)
  | Some x =>
      let '(cl', b) := ensure_bt cl in
      (cl', bt <- b ;; df <- prediction_frame cl' bt X names ;;
            f <- attr (c_cf cl) ;; p <- attr (c_pc cl) ;;
            let ys := option_map y_vals y in
            _ <- (match ys with
                  | Some l => if length l =? length (frows df) then Ok tt else Err ValueError
                  | None => Ok tt end) ;;
            mapM (fun ir : nat * rule => stat_of w f p df ys n_examples (fst ir) (snd ir))
                 (combine (seq 0 (length (rs_rules x))) (rs_rules x)))
  end.

(** ** Editing (362-388) *)

(** lines 362-367 [init_ruleset] *)
(* abstract_ruleset_classifier.py:362-367 [init_ruleset] *)
Definition init_ruleset (cl : clf) (m : model_arg) (f p : pyval) : clf * res unit :=
  match frommodel m with
  | Err e => (cl, Err e)
  | Ok x => let sel := selected_features (rs_rules x) in
            (mkclf (c_alg cl) (c_hyper cl) (Some x) (Some f) (Some p) (c_bt cl) (Some sel) (Some sel) (c_classes cl), Ok tt)
  end.

(** a Rule argument given as an object; for an object that is neither rule, text, iterable nor falsy [asrule] returns None and the
    code goes on with None: rejected here (simplification) *)
(* base.py:516-530 [asrule] *)
Definition rule_arg (o : obj) : res rule :=
  r <- asrule o ;; match r with Some r => Ok r | None => Err TypeError end.

(** apply an edit of the rule list; a failing edit leaves the list as it was *)
(* abstract_ruleset_classifier.py:369-388: the editing methods *)
Definition edit (cl : clf) (f : list rule -> res (list rule)) : clf * res unit :=
  match c_rs cl with
  | None => (cl, Err AttributeError)
  | Some x => match f (rs_rules x) with
              | Ok l => (set_rs cl (set_rules x l), Ok tt)
              | Err e => (cl, Err e)
              end
  end.
(* abstract_ruleset_classifier.py:369-370, base.py:181-183 *)
Definition add_rule (cl : clf) (o : obj) : clf * res unit := edit cl (fun l => r <- rule_arg o ;; Ok (rs_add r l)).
(* abstract_ruleset_classifier.py:378-379, base.py:185-187 *)
Definition remove_rule_at (cl : clf) (i : Z) : clf * res unit := edit cl (rs_remove i).
(* abstract_ruleset_classifier.py:381-382, base.py:189-192 *)
Definition remove_rule (cl : clf) (o : obj) : clf * res unit := edit cl (fun l => r <- rule_arg o ;; rs_remove_rule r l).
(* abstract_ruleset_classifier.py:384-385, base.py:194-196 *)
Definition insert_rule_at (cl : clf) (i : Z) (o : obj) : clf * res unit :=
  edit cl (fun l => _ <- check_index i l ;; r <- rule_arg o ;; rs_insert i r l).
(* abstract_ruleset_classifier.py:387-388, base.py:198-201 *)
Definition insert_rule (cl : clf) (before o : obj) : clf * res unit :=
  edit cl (fun l => b <- rule_arg before ;; _ <- find_rule b l ;; r <- rule_arg o ;; rs_insert_rule b r l).
(* abstract_ruleset_classifier.py:372-373, base.py:203-205 *)
Definition replace_rule_at (cl : clf) (i : Z) (o : obj) : clf * res unit :=
  edit cl (fun l => _ <- check_index i l ;; r <- rule_arg o ;; rs_replace i r l).
(* abstract_ruleset_classifier.py:375-376, base.py:207-210 *)
Definition replace_rule (cl : clf) (old o : obj) : clf * res unit :=
  edit cl (fun l => b <- rule_arg old ;; _ <- find_rule b l ;; r <- rule_arg o ;; rs_replace_rule b r l).

(** ** interpret.py *)

(** interpret.py:86-101 [model_predict] is the black box: any function from data to predictions (or an exception). What it returns
    is a numpy array (or something else with [.item()]) or a plain sequence. *)
Inductive box_out := BoxArray (l : list pyval) | BoxList (l : list pyval).
(* the predictions as values *)
Definition box_vals (o : box_out) : list pyval := match o with BoxArray l => l | BoxList l => l end.
(* interpret.py:86-101 [model_predict] *)
Definition blackbox := data -> res box_out.
(** utils.py:35-39 [try_np_tonum]: [.item()] of an array with one element is that element; otherwise the value is returned as it is *)
Definition try_tonum (o : box_out) : pyval + list pyval := match o with BoxArray [v] => inl v | o => inr (box_vals o) end.
(** interpret.py:67-74: the predictions to compare with; those passed by the user are not touched *)
Definition fidelity_preds (X : data) (model : option blackbox) (model_preds : option (list pyval)) : res (pyval + list pyval) :=
  match model_preds, model with
  | Some l, _ => Ok (inr l)
  | None, Some m => o <- m X ;; Ok (try_tonum o)
  | None, None => Err ValueError
  end.
(* interpreter.score(X, preds, f), abstract_ruleset_classifier.py:156-161, preprocess.py:142-167, ripper.py:404-409: a single value cannot be iterated *)
Definition score_preds {A} (metric : list bool -> list bool -> res A) (interp : clf) (X : data) (l : pyval + list pyval) : clf * res A :=
  match l with
  | inr l => clf_score metric interp X (YList l)
  | inl _ => let '(i1, o) := clf_predict interp X None in (i1, _ <- o ;; Err TypeError)
  end.
(* interpret.py:45-83 [score_fidelity], one metric *)
Definition score_fidelity {A} (metric : list bool -> list bool -> res A) (X : data) (interp : clf) (model : option blackbox)
    (model_preds : option (list pyval)) : clf * res A :=
  match fidelity_preds X model model_preds with
  | Err e => (interp, Err e)
  | Ok l => score_preds metric interp X l
  end.
(* interpret.py:75-83, 124-130: several metrics, one after the other *)
Fixpoint score_each {A} (metrics : list (list bool -> list bool -> res A)) (X : data) (interp : clf) (l : pyval + list pyval)
  : clf * res (list A) :=
  match metrics with
  | [] => (interp, Ok [])
  | m :: t => let '(i1, o) := score_preds m interp X l in
              match o with
              | Err e => (i1, Err e)
              | Ok v => let '(i2, o2) := score_each t X i1 l in (i2, vs <- o2 ;; Ok (v :: vs))
              end
  end.
(* interpret.py:45-83 [score_fidelity], several metrics *)
Definition score_fidelity_list {A} (metrics : list (list bool -> list bool -> res A)) (X : data) (interp : clf) (model : option blackbox)
    (model_preds : option (list pyval)) : clf * res (list A) :=
  match fidelity_preds X model model_preds with
  | Err e => (interp, Err e)
  | Ok l => score_each metrics X interp l
  end.
(** interpret.py:36-40 [interpret_model]: fit the interpreter to the black box's predictions. A single value as y is broadcast over the
    rows (preprocess.py:239: df[class_feat] = y). *)
Definition interpret_model (w : world) (X : data) (model : blackbox) (interp : clf) : clf * res ruleset :=
  match model X with
  | Err e => (interp, Err e)
  | Ok o => let y := match try_tonum o with inl v => repeat v (data_len X) | inr l => l end in
            let '(i1, o) := fit w interp X (Some (YList y)) None None None MNone true [] in
            (i1, _ <- o ;; attr (c_rs i1))
  end.
