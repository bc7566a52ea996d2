(** * Warn.v : the warnings issued by fit and predict (check.py, base.py:294-314, preprocess.py:291, discretize.py:254-279). A warning is written
    with what it tells: its kind and what it names; the wording is not modelled. *)
From Verif Require Export Classifier.

(** check.py:79-85 "No positive samples", "No negative samples"; check.py:72-77 "No positive / negative samples. All target labels=v"; base.py:297
    "Ruleset is universal", base.py:306 "Ruleset is empty"; abstract_ruleset_classifier.py:421-434 (parameters passed to fit); discretize.py:273, 278
    "there was a problem parsing range in string" *)
Inductive warning := WNoPositive | WNoNegative | WSingleClass (v : pyval) (positive_missing : bool) | WUniversal | WEmpty
  | WParams (ps : list param) | WRange (c : cond).

(** check.py:79-85 [_check_df_allpos_allneg] *)
Definition class_warnings (df : frame) (f p : pyval) : list warning :=
  if negb (existsb (fun v => py_eq v p) (column df f)) then [WNoPositive]
  else if forallb (fun v => py_eq v p) (column df f) then [WNoNegative] else [].
(** base.py:294-314 [_check_allpos_allneg] with warn=True *)
Definition model_warnings (rs : list rule) : list warning :=
  if rs_isuniversal rs then [WUniversal] else if rs_isnull rs then [WEmpty] else [].
(** preprocess.py:262-309 [_get_pos_class] with check.py:72-77: the warning comes with an inferred class, from one value only *)
Definition single_class_warnings (vs : list pyval) (pc : option pyval) : list warning :=
  match pc, unique vs with
  | None, [v] => match get_pos_class vs None with Ok p => [WSingleClass v (negb (py_eq v p))] | Err _ => [] end
  | _, _ => []
  end.
(** preprocess.py:17-60: the class is determined after the input checks and the making of the table *)
Definition preprocess_warnings (X : data) (y : option ydata) (cf pc : option pyval) (names : option (list pyval)) : list warning :=
  match (_ <- check_input X y cf names true ;; match class_feat_name cf y with
         | None => df <- training_df X y PNaN names ;; Ok (map (fun r => last (rcells r) PNaN) (frows df))
         | Some f => df <- training_df X y f names ;; Ok (column df f) end) with
  | Ok vs => single_class_warnings vs pc
  | Err _ => []
  end.
(** abstract_ruleset_classifier.py:421-434 [_set_deprecated_fit_params]: the known ones among the parameters passed to fit *)
Definition param_warnings (a : alg) (kwargs : list (param * pvalue)) : list warning :=
  match filter (fun p => existsb (param_eqb p) (valid_params a)) (map fst kwargs) with [] => [] | l => [WParams l] end.

(** irep.py:94-217, ripper.py:115-372: the warnings of a call of fit, in order, up to the point where it raises if it does *)
Definition fit_warnings (w : world) (cl : clf) (X : data) (y : option ydata) (cf pc : option pyval) (names : option (list pyval))
    (init : model_arg) (cnopt : bool) (kwargs : list (param * pvalue)) : list warning :=
  match (match c_alg cl with IREP_ => _ <- irep_start init ;; Ok tt | RIPPER_ => Ok tt end) with
  | Err _ => []
  | Ok _ =>
      let h := c_hyper (set_fit_params cl kwargs) in let e := w_env w in
      param_warnings (c_alg cl) kwargs ++ preprocess_warnings X y cf pc names ++
      match preprocess_training (w_cut w) (h_nbins h) X y cf pc names with
      | Err _ => []
      | Ok (df, f, p, _) =>
          match (_ <- (if cnopt then _ <- cn_make df f ;; Ok tt else Ok tt) ;; '(a, b) <- pos_neg_split df f p ;; _ <- drop_col a f ;; drop_col b f) with
          | Err _ => []
          | Ok _ =>
              class_warnings df f p ++
              match (x <- frommodel init ;; match c_alg cl with IREP_ => irep_train e h cnopt df f p x | RIPPER_ => ripper_train e h cnopt df f p x end) with
              | Err _ => []
              | Ok x1 => model_warnings (rs_rules x1)
              end
          end
      end
  end.

(** discretize.py:295-304 with 254-279: every condition of the rules is tried as a range, until one raises *)
Fixpoint range_warnings (cs : list cond) : list warning :=
  match cs with
  | [] => []
  | c :: t => match cval c with
              | PStr s => match find_floor_ceil s with
                          | Err _ => []
                          | Ok None => WRange c :: range_warnings t
                          | Ok (Some _) => range_warnings t
                          end
              | _ => []
              end
  end.
(** abstract_ruleset_classifier.py:414-419 [_ensure_has_bin_transformer] *)
Definition ensure_warnings (cl : clf) : list warning :=
  match c_bt cl, c_rs cl with None, Some x => range_warnings (get_conds (rs_rules x)) | _, _ => [] end.
(** abstract_ruleset_classifier.py:92-137 [predict], with or without reasons; a fitted transformer's own labels are always ranges *)
Definition predict_warnings (cl : clf) (X : data) (names : option (list pyval)) : list warning :=
  match c_rs cl with
  | None => []
  | Some x =>
      ensure_warnings cl ++
      match ensure_bt cl with
      | (cl', Ok bt) => match prediction_frame cl' bt X names with Ok _ => model_warnings (rs_rules x) | Err _ => [] end
      | (_, Err _) => []
      end
  end.
