(** * Preprocess.v : from user data to training / prediction frames (preprocess.py) *)
From Verif Require Export Discretize Proba.

(** What the user passes as X: a DataFrame, or rows (list of lists / 2-D array) *)
(* preprocess.py:170-259: X as DataFrame, list of rows / array *)
Inductive data := DFrame (fr : frame) | DRows (rows : list (list pyval)).
(** What the user passes as y: a pandas Series (name possibly None, index labels, values) or any other 1-D iterable *)
(* preprocess.py:142-167, 216-240: y as list, array or Series *)
Inductive ydata := YSeries (name : option pyval) (ix : list nat) (vals : list pyval) | YList (vals : list pyval).
(* preprocess.py:142-167: the values of y *)
Definition y_vals (y : ydata) : list pyval := match y with YSeries _ _ v => v | YList v => v end.

(* len(X), check.py:32-33 *)
Definition data_len (X : data) : nat := match X with DFrame fr => length (frows fr) | DRows rows => length rows end.

(** [pd.DataFrame(rows)]: columns 0, 1, ..., index 0, 1, ...; shorter rows are padded with missing values *)
(* number of columns of an array *)
Definition width (rows : list (list pyval)) : nat := fold_right Nat.max 0 (map (@length pyval) rows).
(* pandas' default column names *)
Definition int_names (n : nat) : list pyval := map (fun i => PInt (Z.of_nat i)) (seq 0 n).
(* pd.DataFrame(list of rows of different lengths) *)
Definition pad (w : nat) (r : list pyval) : list pyval := r ++ repeat PNaN (w - length r).
(* preprocess.py:216-259: pd.DataFrame(X) *)
Definition to_df (X : data) : frame :=
  match X with
  | DFrame fr => fr
  | DRows rows => mkframe (int_names (width rows))
                    (map (fun p : nat * list pyval => mkrow (fst p) (pad (width rows) (snd p))) (combine (seq 0 (length rows)) rows))
  end.

(** preprocess.py:195-200: the feature names used for the check *)
Definition known_names (X : data) (names : option (list pyval)) : list pyval :=
  match names with
  | Some l => l
  | None => match X with DFrame fr => fcols fr | DRows rows => int_names (length (hd [] rows)) end
  end.

(** preprocess.py:170-213 [_check_valid_input_data] (requires_label = [need]) *)
Definition check_input (X : data) (y : option ydata) (cf : option pyval) (names : option (list pyval)) (need : bool) : res unit :=
  if data_len X =? 0 then Err ValueError
  else if negb need then Ok tt
  else match y, cf with
       | None, None => Err ValueError
       | None, Some f => if existsb (fun c => py_eq c f) (known_names X names) then Ok tt else Err IndexError
       | Some (YSeries None _ _), Some _ => Err NameError
       | Some (YSeries (Some n) _ _), Some f => if py_eq n f then Ok tt else Err NameError
       | Some _, _ => Ok tt
       end.

(** preprocess.py:312-324 [_get_class_feat_name]; [None] when y is a Series without a name *)
Definition class_feat_name (cf : option pyval) (y : option ydata) : option pyval :=
  match cf, y with
  | Some f, _ => Some f
  | None, Some (YSeries n _ _) => n
  | None, _ => Some (PStr ($"Class"))
  end.

(** [df.columns = list(names)]: ValueError if the number of names is wrong *)
(* preprocess.py:216-259: df.columns = feature_names *)
Definition rename (names : option (list pyval)) (fr : frame) : res frame :=
  match names with
  | None => Ok fr
  | Some l => if length l =? length (fcols fr) then Ok (mkframe l (frows fr)) else Err ValueError
  end.

(** [df[f] = values] (one value per row): overwrite the column, or append it *)
(* df[col] = values *)
Definition put_col (fr : frame) (f : pyval) (vs : list pyval) : frame :=
  if has_col fr f then set_col fr f vs
  else mkframe (fcols fr ++ [f])
         (map (fun p : row * pyval => mkrow (rlab (fst p)) (rcells (fst p) ++ [snd p])) (combine (frows fr) vs)).
(** [df.set_index(index)] (same length) *)
(* df.set_index, preprocess.py:216-240 *)
Definition set_index (fr : frame) (ix : list nat) : frame :=
  with_rows fr (map (fun p : row * nat => mkrow (snd p) (rcells (fst p))) (combine (frows fr) ix)).

(* Series index without repetitions *)
Fixpoint nodupb (l : list nat) : bool := match l with [] => true | x :: t => negb (nmem x t) && nodupb t end.
(** [df[f] = series] with a different index: each row gets the value of the series at the row's label, or nan *)
(* df[col] = Series: alignment by label, preprocess.py:216-240 *)
Definition lookup_label (ix : list nat) (vals : list pyval) (l : nat) : pyval :=
  match find (fun p : nat * pyval => fst p =? l) (combine ix vals) with Some p => snd p | None => PNaN end.

(** preprocess.py:229-239: attach the labels. A Series of the right length: its index replaces the frame's, then assignment by
    position. A Series of another length: [set_index] raises, the except branch assigns by label (ValueError if its index
    repeats a label). Anything else: by position, ValueError if the length differs. *)
Definition attach_labels (fr : frame) (y : ydata) (f : pyval) : res frame :=
  match y with
  | YSeries _ ix vals =>
      if length ix =? length (frows fr) then Ok (put_col (set_index fr ix) f vals)
      else if nodupb ix then Ok (put_col fr f (map (fun r => lookup_label ix vals (rlab r)) (frows fr)))
      else Err ValueError
  | YList vals => if length vals =? length (frows fr) then Ok (put_col fr f vals) else Err ValueError
  end.

(** preprocess.py:216-240 [_convert_to_training_df] *)
Definition training_df (X : data) (y : option ydata) (f : pyval) (names : option (list pyval)) : res frame :=
  fr <- rename names (to_df X) ;;
  match y with None => Ok fr | Some y => attach_labels fr y f end.

(** preprocess.py:243-259 [_convert_to_prediction_df]: the class column is dropped before the names are assigned *)
Definition prediction_df (X : data) (cf : pyval) (names : option (list pyval)) : res frame :=
  let fr := to_df X in
  fr' <- (if has_col fr cf then drop_col fr cf else Ok fr) ;;
  rename (option_map (filter (fun f => negb (py_eq f cf))) names) fr'.

(** [v == False and isinstance(v, bool)] *)
(* preprocess.py:262-309: values taken as the negative class *)
Definition is_false (v : pyval) : bool := match v with PBool false => true | _ => false end.
(* value is text *)
Definition is_text (v : pyval) : bool := match v with PStr _ => true | _ => false end.
(** numeric order used by [class_values.sort()] on two values (missing values last) *)
(* preprocess.py:262-309: sorted values *)
Definition val_le (a b : pyval) : bool :=
  match num_of a, num_of b with Some x, Some y => Qle_bool x y | Some _, None => true | None, _ => false end.

(** preprocess.py:262-309 [_get_pos_class]. Sorting text together with other values is a TypeError. Two texts can never be
    equal to False/True/0/1, so their order does not matter. *)
Definition get_pos_class (vs : list pyval) (pc : option pyval) : res pyval :=
  match pc with
  | Some p => Ok p
  | None =>
      match unique vs with
      | [] => Err IndexError
      | [v] => if is_false v then Ok (PBool true) else if py_eq v (PInt 0) then Ok (PInt 1) else Ok v
      | [a; b] =>
          if xorb (is_text a) (is_text b) then Err TypeError
          else let '(a, b) := if val_le a b then (a, b) else (b, a) in
               if is_false a && py_eq b (PBool true) then Ok (PBool true)
               else if py_eq a (PInt 0) && py_eq b (PInt 1) then Ok (PInt 1)
               else Err NameError
      | _ => Err NameError
      end
  end.

(** discretize.py:52-54 [fit_transform] *)
Definition fit_transform (cut : Z -> list pyval -> list edge) (nbins : option Z) (fr : frame) (ignore : list pyval)
  : res (bin_transformer * frame) :=
  bt <- fit_bins cut nbins fr ignore ;;
  fr' <- transform bt fr ;;
  Ok (bt, fr').

(** preprocess.py:17-60 [preprocess_training_data]. When no class feature name can be found (a Series without a name) the class
    column is called None (written PNaN here: no column is equal to it), and the later [df.drop(None, axis=1)] (irep.py:194,
    ripper.py:214) raises ValueError; the model raises it here, a simplification that only affects which attributes are left behind. *)
Definition preprocess_training (cut : Z -> list pyval -> list edge) (nbins : option Z)
    (X : data) (y : option ydata) (cf pc : option pyval) (names : option (list pyval))
  : res (frame * pyval * pyval * bin_transformer) :=
  _ <- check_input X y cf names true ;;
  match class_feat_name cf y with
  | None =>
      df <- training_df X y PNaN names ;;
      _ <- get_pos_class (map (fun r => last (rcells r) PNaN) (frows df)) pc ;;
      _ <- fit_transform cut nbins df [] ;;
      Err ValueError
  | Some f =>
      df <- training_df X y f names ;;
      p <- get_pos_class (column df f) pc ;;
      ' (bt, df') <- fit_transform cut nbins df [f] ;;
      Ok (df', f, p, bt)
  end.

(** preprocess.py:63-101 [preprocess_prediction_data] *)
Definition preprocess_prediction (X : data) (cf : pyval) (names : option (list pyval)) (selected : list pyval)
    (bt : bin_transformer) : res frame :=
  _ <- check_input X None (Some cf) names false ;;
  df <- prediction_df X cf names ;;
  _ <- check_features df selected ;;
  if bt_bool bt then transform bt df else Ok df.

(** preprocess.py:104-139 [_preprocess_recalibrate_proba_data] *)
Definition preprocess_recalibrate (X : data) (y : option ydata) (cf : pyval) (names : option (list pyval))
    (bt : option bin_transformer) : res frame :=
  _ <- check_input X y (Some cf) names true ;;
  df <- training_df X y cf names ;;
  match bt with
  | Some b => if bt_bool b then transform b df else Ok df
  | None => Ok df
  end.
