(** * Store.v : the tables and labels of the caller as mutable objects (C93)
    pandas DataFrames and Series, arrays and lists live in a store and are passed by reference; the operations the package performs on
    them in place (assigning a column, assigning the column names, drop(inplace=True)) overwrite an object of the store. A classifier
    holds no reference to any of them (its attributes are the values of Classifier.v: lists of names, bins, rules).
    Simplification: buffers shared between an array and the DataFrame made from it (pd.DataFrame(array)) are not modelled: assigning a
    column replaces the column and writes into no buffer. *)
From Verif Require Export Classifier.
Open Scope nat_scope.

(** the objects a caller may pass *)
(* preprocess.py:170-259: X as DataFrame or rows, y as Series or list *)
Inductive pobj := FrameO (fr : frame) | RowsO (rows : list (list pyval)) | SeriesO (name : option pyval) (ix : list nat) (vals : list pyval)
  | ListO (vals : list pyval).
(* preprocess.py:170-259: the objects, by address *)
Definition store := list pobj.
(** a computation that may change the store and may raise *)
(* Python statements on mutable objects *)
Definition M (A : Type) : Type := store -> store * res A.
(* Python statements on mutable objects *)
Definition ret {A} (a : A) : M A := fun s => (s, Ok a).
(* Python statements on mutable objects *)
Definition lift {A} (r : res A) : M A := fun s => (s, r).
(* Python statements on mutable objects *)
Definition andthen {A B} (m : M A) (k : A -> M B) : M B := fun s => let '(s', r) := m s in match r with Ok a => k a s' | Err e => (s', Err e) end.
Notation "x <~ m ;; k" := (andthen m (fun x => k)) (at level 61, m at next level, right associativity).

(** ** Objects *)
(* Python statements on mutable objects *)
Definition read (a : nat) : M pobj := fun s => (s, match nth_error s a with Some o => Ok o | None => Err NameError end).
(* Python statements on mutable objects *)
Definition new (o : pobj) : M nat := fun s => (s ++ [o], Ok (length s)).
(* Python statements on mutable objects *)
Definition write (a : nat) (o : pobj) : M unit := fun s => (set_nth a o s, Ok tt).
(** an object that is not a DataFrame where one is needed is outside the model *)
(* DataFrame arguments *)
Definition as_frame (o : pobj) : res frame := match o with FrameO fr => Ok fr | _ => Err TypeError end.
(* preprocess.py:170-259: X is a DataFrame or rows; anything else is outside the model *)
Definition as_data (o : pobj) : res data := match o with FrameO fr => Ok (DFrame fr) | RowsO r => Ok (DRows r) | _ => Err TypeError end.
(* preprocess.py:142-167, 216-240: y is a Series or a list; anything else is outside the model *)
Definition as_labels (o : pobj) : res ydata := match o with SeriesO n ix v => Ok (YSeries n ix v) | ListO v => Ok (YList v) | _ => Err TypeError end.
(* DataFrame arguments *)
Definition read_frame (a : nat) : M frame := o <~ read a ;; lift (as_frame o).
(* preprocess.py:170-259 *)
Definition read_data (a : nat) : M data := o <~ read a ;; lift (as_data o).
(* preprocess.py:142-167, 216-240 *)
Definition read_labels (a : option nat) : M (option ydata) :=
  match a with None => ret None | Some a => o <~ read a ;; y <~ lift (as_labels o) ;; ret (Some y) end.

(** ** pandas operations *)
(* df.copy(), df.infer_objects(): a new DataFrame *)
Definition pd_copy (a : nat) : M nat := fr <~ read_frame a ;; new (FrameO fr).
(* pd.DataFrame(X) of rows or an array: a new DataFrame *)
Definition pd_make (X : data) : M nat := new (FrameO (to_df X)).
(* df.columns = list(names), in place *)
Definition pd_set_columns (a : nat) (names : list pyval) : M unit :=
  fr <~ read_frame a ;; if length names =? length (fcols fr) then write a (FrameO (mkframe names (frows fr))) else lift (Err ValueError).
(* df[f] = values (one per row), in place *)
Definition pd_put (a : nat) (f : pyval) (vs : list pyval) : M unit := fr <~ read_frame a ;; write a (FrameO (put_col fr f vs)).
(* df[f] = values for a column that is there, in place *)
Definition pd_set (a : nat) (f : pyval) (vs : list pyval) : M unit := fr <~ read_frame a ;; write a (FrameO (set_col fr f vs)).
(* df.set_index(index): a new DataFrame *)
Definition pd_set_index (a : nat) (ix : list nat) : M nat := fr <~ read_frame a ;; new (FrameO (set_index fr ix)).
(* df.drop(f, axis=1, inplace=True) *)
Definition pd_drop (a : nat) (f : pyval) : M unit := fr <~ read_frame a ;; fr' <~ lift (drop_col fr f) ;; write a (FrameO fr').

(** ** preprocess.py *)
(** preprocess.py:216-240 [_convert_to_training_df] *)
Definition h_training_df (X : nat) (y : option nat) (f : pyval) (names : option (list pyval)) : M nat :=
  d <~ read_data X ;;
  df <~ (match d with DFrame _ => pd_copy X | DRows _ => pd_make d end) ;;
  _ <~ (match names with None => ret tt | Some l => pd_set_columns df l end) ;;
  yv <~ read_labels y ;;
  match yv with
  | None => ret df
  | Some (YSeries n ix vals) =>
      fr <~ read_frame df ;;
      if length ix =? length (frows fr) then
        df2 <~ pd_set_index df ix ;;
        _ <~ new (SeriesO n ix vals) (* y.copy() *) ;;
        _ <~ pd_put df2 f vals ;; ret df2
      else if nodupb ix then _ <~ pd_put df f (map (fun r => lookup_label ix vals (rlab r)) (frows fr)) ;; ret df
      else lift (Err ValueError)
  | Some (YList vals) =>
      fr <~ read_frame df ;;
      if length vals =? length (frows fr) then _ <~ pd_put df f vals ;; ret df else lift (Err ValueError)
  end.
(** preprocess.py:243-259 [_convert_to_prediction_df] *)
Definition h_prediction_df (X : nat) (cf : pyval) (names : option (list pyval)) : M nat :=
  d <~ read_data X ;;
  df <~ (match d with DFrame _ => pd_copy X | DRows _ => pd_make d end) ;;
  fr <~ read_frame df ;;
  _ <~ (if has_col fr cf then pd_drop df cf else ret tt) ;;
  _ <~ (match names with None => ret tt | Some l => pd_set_columns df (filter (fun f => negb (py_eq f cf)) l) end) ;;
  ret df.
(** discretize.py:201-203: the columns are overwritten one after the other, in place *)
Fixpoint h_transform_cols (bt : bin_transformer) (done : list pyval) (bins : list (pyval * list str)) (a : nat) : M unit :=
  match bins with
  | [] => ret tt
  | (f, b) :: t =>
      fr <~ read_frame a ;;
      if has_col fr f && negb (existsb (fun g => py_eq g f) done)
      then vs <~ lift (transform_feat bt f b (column fr f)) ;; _ <~ pd_set a f vs ;; h_transform_cols bt done t a
      else h_transform_cols bt done t a
  end.
(** discretize.py:177-204 [BinTransformer.transform]: [res = df.copy()] is what the columns are overwritten in *)
Definition h_transform (bt : bin_transformer) (a : nat) : M nat :=
  match bt_bins bt with
  | None => lift (Err AttributeError)
  | Some bins =>
      fr <~ read_frame a ;;
      done <~ lift (find_transformed bins fr) ;;
      r <~ pd_copy a ;;
      _ <~ h_transform_cols bt done bins r ;; ret r
  end.
(** preprocess.py:17-60 [preprocess_training_data] (see [preprocess_training] for a Series without a name) *)
Definition h_preprocess_training (cut : Z -> list pyval -> list edge) (nbins : option Z) (X : nat) (y : option nat) (cf pc : option pyval)
    (names : option (list pyval)) : M (nat * pyval * pyval * bin_transformer) :=
  d <~ read_data X ;; yv <~ read_labels y ;;
  _ <~ lift (check_input d yv cf names true) ;;
  match class_feat_name cf yv with
  | None =>
      df <~ h_training_df X y PNaN names ;;
      fr <~ read_frame df ;;
      _ <~ lift (get_pos_class (map (fun r => last (rcells r) PNaN) (frows fr)) pc) ;;
      df2 <~ pd_copy df (* infer_objects *) ;;
      bt <~ lift (fit_bins cut nbins fr []) ;;
      _ <~ h_transform bt df2 ;;
      lift (Err ValueError)
  | Some f =>
      df <~ h_training_df X y f names ;;
      fr <~ read_frame df ;;
      p <~ lift (get_pos_class (column fr f) pc) ;;
      df2 <~ pd_copy df (* infer_objects *) ;;
      bt <~ lift (fit_bins cut nbins fr [f]) ;;
      df3 <~ h_transform bt df2 ;;
      ret (df3, f, p, bt)
  end.
(** preprocess.py:63-101 [preprocess_prediction_data] *)
Definition h_preprocess_prediction (X : nat) (cf : pyval) (names : option (list pyval)) (selected : list pyval) (bt : bin_transformer) : M nat :=
  d <~ read_data X ;;
  _ <~ lift (check_input d None (Some cf) names false) ;;
  df <~ h_prediction_df X cf names ;;
  fr <~ read_frame df ;;
  _ <~ lift (check_features fr selected) ;;
  df2 <~ pd_copy df (* infer_objects *) ;;
  if bt_bool bt then h_transform bt df2 else ret df2.
(** preprocess.py:104-139 [_preprocess_recalibrate_proba_data] *)
Definition h_preprocess_recalibrate (X : nat) (y : option nat) (cf : pyval) (names : option (list pyval)) (bt : option bin_transformer) : M nat :=
  d <~ read_data X ;; yv <~ read_labels y ;;
  _ <~ lift (check_input d yv (Some cf) names true) ;;
  df <~ h_training_df X y cf names ;;
  df2 <~ pd_copy df (* infer_objects *) ;;
  match bt with
  | Some b => if bt_bool b then h_transform b df2 else ret df2
  | None => ret df2
  end.

(** ** API calls: a store to a store, the classifier afterwards, and the outcome *)
(* abstract_ruleset_classifier.py:212-265 [recalibrate_proba] *)
Definition h_recalibrate (cl : clf) (X : nat) (y : option nat) (names : option (list pyval)) (min_samples : option Z) (require_min discretize : bool)
    (s : store) : store * (clf * res unit) :=
  match c_cf cl, c_pc cl with
  | Some f, Some p =>
      match (if discretize then b <- attr (c_bt cl) ;; Ok (Some b) else Ok None) with
      | Err e => (s, (cl, Err e))
      | Ok bt =>
          let '(s1, r) := (df <~ h_preprocess_recalibrate X y f names bt ;; read_frame df) s in
          (s1, match r with
               | Err e => (cl, Err e)
               | Ok df => match c_rs cl with
                          | None => (cl, Err AttributeError)
                          | Some x => let '(x', o) := recalibrate_run min_samples require_min (h_alpha (c_hyper cl)) x df f p in (set_rs cl x', o)
                          end
               end)
      end
  | _, _ => (s, (cl, Err AttributeError))
  end.
(** irep.py:94-235 [IREP.fit]: the learning reads the training DataFrame and filters it (new DataFrames); the recalibration at the end
    gets the DataFrame itself *)
Definition h_irep_fit (w : world) (cl : clf) (X : nat) (y : option nat) (cf pc : option pyval) (names : option (list pyval))
    (init : model_arg) (cnopt : bool) (s : store) : store * (clf * res unit) :=
  let h := c_hyper cl in let e := w_env w in
  match irep_start init with
  | Err er => (s, (cl, Err er))
  | Ok x0 =>
  let cl1 := set_rs cl x0 in
  let '(s1, r) := (t <~ h_preprocess_training (w_cut w) (h_nbins h) X y cf pc names ;; fr <~ read_frame (fst (fst (fst t))) ;; ret (t, fr)) s in
  match r with
  | Err er => (s1, (cl1, Err er))
  | Ok (a, f, p, bt, df) =>
  let cl2 := set_data cl1 f p bt in
  match (x <- frommodel init ;; irep_train e h cnopt df f p x) with
  | Err er => (s1, (cl2, Err er))
  | Ok x1 =>
  let cl3 := set_rs cl2 x1 in
  match cols_without df f with
  | Err er => (s1, (cl3, Err er))
  | Ok feats =>
  let cl4 := set_feats cl3 (selected_features (rs_rules x1)) feats in
  let '(s2, (cl5, o)) := h_recalibrate cl4 a None None (Some 1%Z) false false s1 in
  (s2, match o with
       | Err er => (cl5, Err er)
       | Ok _ =>
         let cl6 := set_classes cl5 [PInt 0; PInt 1] in
         match c_rs cl6 with
         | None => (cl6, Err AttributeError)
         | Some x2 => (set_rs cl6 (dedupe_trim e h x2), Ok tt)
         end
       end)
  end end end end.
(** ripper.py:101-390 [RIPPER.fit] *)
Definition h_ripper_fit (w : world) (cl : clf) (X : nat) (y : option nat) (cf pc : option pyval) (names : option (list pyval))
    (init : model_arg) (cnopt : bool) (s : store) : store * (clf * res unit) :=
  let h := c_hyper cl in let e := w_env w in
  let '(s1, r) := (t <~ h_preprocess_training (w_cut w) (h_nbins h) X y cf pc names ;; fr <~ read_frame (fst (fst (fst t))) ;; ret (t, fr)) s in
  match r with
  | Err er => (s1, (cl, Err er))
  | Ok (a, f, p, bt, df) =>
  let cl2 := set_data cl f p bt in
  match (match frommodel init with Ok x => ripper_trace e h cnopt df f p x | Err er => (None, Err er) end) with
  | (lf, Err er) => (s1, (keep_rs cl2 lf, Err er))
  | (_, Ok x1) =>
  let cl3 := set_rs cl2 x1 in
  match cols_without df f with
  | Err er => (s1, (cl3, Err er))
  | Ok feats =>
  let cl4 := set_rs (set_feats cl3 (selected_features (rs_rules x1)) feats) (dedupe_trim e h x1) in
  let '(s2, (cl5, o)) := h_recalibrate cl4 a None None (Some 1%Z) false false s1 in
  (s2, match o with
       | Err er => (cl5, Err er)
       | Ok _ => (set_classes cl5 [PInt 0; PInt 1], Ok tt)
       end)
  end end end.
(* irep.py:94-235, ripper.py:101-390: fit with keyword arguments *)
Definition h_fit (w : world) (cl : clf) (X : nat) (y : option nat) (cf pc : option pyval) (names : option (list pyval))
    (init : model_arg) (cnopt : bool) (kwargs : list (param * pvalue)) (s : store) : store * (clf * res unit) :=
  match c_alg cl with
  | IREP_ => match irep_start init with
             | Err er => (s, (cl, Err er))
             | Ok _ => h_irep_fit w (set_fit_params cl kwargs) X y cf pc names init cnopt s
             end
  | RIPPER_ => h_ripper_fit w (set_fit_params cl kwargs) X y cf pc names init cnopt s
  end.

(* abstract_ruleset_classifier.py:123-135: the preprocessed prediction frame *)
Definition h_prediction_frame (cl : clf) (bt : bin_transformer) (X : nat) (names : option (list pyval)) : M nat :=
  f <~ lift (attr (c_cf cl)) ;; _ <~ lift (attr (c_pc cl)) ;; sel <~ lift (attr (c_sel cl)) ;; _ <~ lift (attr (c_feats cl)) ;;
  h_preprocess_prediction X f names sel bt.
(* abstract_ruleset_classifier.py:92-137 [predict] (with give_reasons); Ruleset.predict reads the frame row by row *)
Definition h_predict (cl : clf) (X : nat) (names : option (list pyval)) (s : store) : store * (clf * res (list bool * list (list rule))) :=
  match c_rs cl with
  | None => (s, (cl, Err AttributeError))
  | Some x => let '(cl', b) := ensure_bt cl in
              let '(s1, r) := (bt <~ lift b ;; df <~ h_prediction_frame cl' bt X names ;; fr <~ read_frame df ;; lift (rs_predict_reasons (rs_rules x) fr)) s in
              (s1, (cl', r))
  end.
(* abstract_ruleset_classifier.py:139-161 [score]: the labels are read *)
Definition h_score (metric : list bool -> list bool -> res (option Q)) (cl : clf) (X y : nat) (s : store) : store * (clf * res (option Q)) :=
  match c_rs cl with
  | None => (s, (cl, Err AttributeError))
  | Some x => let '(cl', b) := ensure_bt cl in
              let '(s1, r) := (bt <~ lift b ;; df <~ h_prediction_frame cl' bt X None ;; fr <~ read_frame df ;;
                               preds <~ lift (rs_predict (rs_rules x) fr) ;; p <~ lift (attr (c_pc cl)) ;;
                               yv <~ read_labels (Some y) ;;
                               match yv with Some v => lift (metric (map (fun v => py_eq v p) (y_vals v)) preds) | None => lift (Err TypeError) end) s in
              (s1, (cl', r))
  end.
(* abstract_ruleset_classifier.py:163-210 [predict_proba] *)
Definition h_predict_proba (cl : clf) (X : nat) (names : option (list pyval)) (s : store) : store * (clf * res (list (Q * Q) * list (list rule))) :=
  match c_rs cl with
  | None => (s, (cl, Err AttributeError))
  | Some x =>
      let '(s1, r) := (bt <~ lift (attr (c_bt cl)) ;; df <~ h_prediction_frame cl bt X names ;; fr <~ read_frame df ;; p <~ lift (attr (c_pc cl)) ;; ret (fr, p)) s in
      (s1, match r with
           | Err e => (cl, Err e)
           | Ok (df, p) => (set_classes cl [PStr ($"not " ++ py_str p); p], rs_predict_proba x df)
           end)
  end.

(** abstract_ruleset_classifier.py:323-337: the examples of one rule, as a DataFrame object; [covered] is the DataFrame of the covered rows *)
Definition h_examples (w : world) (cf : pyval) (df : nat) (covered : nat) (y : option (list pyval)) (n : Z) : M nat :=
  c <~ (match y with
        | None => ret covered
        | Some ys =>
            fr <~ read_frame df ;; cov <~ read_frame covered ;;
            c <~ pd_copy covered (* covered = covered.copy() *) ;;
            if forallb (fun r => length (filter (fun r' => rlab r' =? rlab r) (frows fr)) =? 1) (frows cov)
            then _ <~ pd_put c cf (map (fun r => lookup_label (labels (frows fr)) ys (rlab r)) (frows cov)) ;; ret c
            else lift (Err ValueError)
        end) ;;
  if (n =? -1)%Z then ret c
  else if (0 <? n)%Z then fr <~ read_frame c ;; new (FrameO (with_rows fr (w_sample w (Nat.min (Z.to_nat n) (length (frows fr))) (frows fr))))
  else lift (Err ValueError).
(** abstract_ruleset_classifier.py:301-337: one rule; the line without its examples, and the DataFrame of the examples.
    [rule.covers(X_df)] is a new DataFrame (base.py:379-384: df.head(len(df)), then one filter per condition) *)
Definition h_stat (w : world) (cf pc : pyval) (df : nat) (y : option (list pyval)) (n_examples : option Z) (i : nat) (r : rule) : M (stat_line * option nat) :=
  fr <~ read_frame df ;;
  cov <~ lift (rule_covers r fr) ;;
  covered <~ new (FrameO cov) ;;
  let preds := map (fun rw => nmem (rlab rw) (labels (frows cov))) (frows fr) in
  let n := count_true preds in
  perf <~ lift (match y with
                | None => Ok None
                | Some ys =>
                    let actuals := map (fun v => py_eq v pc) ys in
                    p <- score_precision actuals preds ;;
                    rc <- score_recall actuals preds ;;
                    Ok (Some (p, rc, f1_of p rc))
                end) ;;
  ex <~ (match n_examples with None => ret None | Some k => c <~ h_examples w cf df covered y k ;; ret (Some c) end) ;;
  ret (mkline i (rule_str r) (qdiv n (length (frows fr))) n perf None, ex).
(* abstract_ruleset_classifier.py:301-337: the loop over the rules *)
Fixpoint h_stats (w : world) (cf pc : pyval) (df : nat) (y : option (list pyval)) (n_examples : option Z) (rs : list (nat * rule)) : M (list (stat_line * option nat)) :=
  match rs with
  | [] => ret []
  | (i, r) :: t => l <~ h_stat w cf pc df y n_examples i r ;; ls <~ h_stats w cf pc df y n_examples t ;; ret (l :: ls)
  end.
(* abstract_ruleset_classifier.py:267-355 [rule_stats] *)
Definition h_rule_stats (w : world) (cl : clf) (X : nat) (y : option nat) (n_examples : option Z) (names : option (list pyval)) (s : store)
  : store * (clf * res (list (stat_line * option nat))) :=
  match c_rs cl with
  | None => (s, (cl, Err AttributeError))
  | Some x =>
      let '(cl', b) := ensure_bt cl in
      let '(s1, r) :=
        (bt <~ lift b ;; df <~ h_prediction_frame cl' bt X names ;; fr <~ read_frame df ;;
         f <~ lift (attr (c_cf cl)) ;; p <~ lift (attr (c_pc cl)) ;;
         yv <~ read_labels y ;;
         _ <~ lift (match yv with
                    | Some v => if length (y_vals v) =? length (frows fr) then Ok tt else Err ValueError
                    | None => Ok tt end) ;;
         h_stats w f p df (option_map y_vals yv) n_examples (combine (seq 0 (length (rs_rules x))) (rs_rules x))) s in
      (s1, (cl', r))
  end.
