(** * Discretize.v : BinTransformer (discretize.py) *)
From Verif Require Export Text Metrics.

(** ** Extended numbers and intervals (pandas.Interval, closed on the right) *)

(* float with infinities, discretize.py:244-279 *)
Definition flt (a b : fval) : bool :=
  match a, b with
  | FFin x, FFin y => Qlt_b x y
  | FNInf, FFin _ | FNInf, FPInf | FFin _, FPInf => true
  | _, _ => false
  end.
(* == on floats *)
Definition feq (a b : fval) : bool :=
  match a, b with
  | FFin x, FFin y => Qeq_bool x y
  | FPInf, FPInf | FNInf, FNInf => true
  | _, _ => false
  end.
(* <= on floats *)
Definition fle (a b : fval) : bool := flt a b || feq a b.

(* pd.Interval(left, right), discretize.py:228-230 *)
Record interval := mkint { i_left : fval; i_right : fval }.
(** membership: left exclusive, right inclusive *)
(* value in pd.Interval (left open, right closed), discretize.py:177-204 *)
Definition in_interval (x : Q) (i : interval) : bool := flt (i_left i) (FFin x) && fle (FFin x) (i_right i).

(** A bound as it is printed: the digits Python shows (m * 10^-k positional, or m * 10^-k * 10^e with an exponent), or an infinity *)
(* an interval end as text and number, discretize.py:236-279 *)
Inductive bound := BNum (m : Z) (k : nat) | BExp (m : Z) (k : nat) (e : Z) | BPInf | BNInf.
(* float(text of an interval end), discretize.py:244-252 *)
Definition bound_val (b : bound) : fval :=
  match b with
  | BNum m k => FFin (qdec m k) | BExp m k e => FFin (qdec m k * Qpower (10#1) e)
  | BPInf => FPInf | BNInf => FNInf
  end.
(* text of an interval end, discretize.py:236-242 *)
Definition bound_str (b : bound) : str :=
  match b with BNum m k => dec_str m k | BExp m k e => exp_str m k e | BPInf => $"inf" | BNInf => $"-inf" end.

(** discretize.py:236-242 [_interval_to_str] *)
Definition interval_to_str (l r : bound) : str :=
  match l, r with
  | BNInf, _ => $"<" ++ bound_str r
  | _, BPInf => $">" ++ bound_str l
  | _, _ => bound_str l ++ $" - " ++ bound_str r
  end.

(** discretize.py:340-346 [_maybeexp_idx] *)
Definition maybe_exp (s : str) (idx : nat) : bool :=
  match nth_error s idx with
  | Some c =>
      if negb (Ascii.eqb c (ch "-")) || (idx <=? 1) || (length s - 1 <=? idx) then false
      else match nth_error s (idx - 1), nth_error s (idx - 2), nth_error s (S idx) with
           | Some a, Some b, Some d => Ascii.eqb a (ch "e") && is_digit b && is_digit d
           | _, _, _ => false
           end
  | None => false
  end.

(** check.py:101-106 [is_valid_decimal] *)
Definition is_valid_decimal (s : str) : bool := match parse_float s with Some _ => true | None => false end.

(** positions of the dashes other than position 0 (discretize.py:261-265) *)
Fixpoint dash_positions (i : nat) (s : str) : list nat :=
  match s with
  | [] => []
  | c :: t => (if Ascii.eqb c (ch "-") && negb (i =? 0) then [i] else []) ++ dash_positions (S i) t
  end.

(** discretize.py:254-279 [find_floor_ceil]; [Ok None] = returns None (after a warning). With several dashes the local
    variables floor and ceil are never assigned: UnboundLocalError. *)
Definition find_floor_ceil (value : str) : res (option (str * str)) :=
  match split_sub ($" - ") value with
  | [a; b] => Ok (Some (a, b))
  | _ =>
      match dash_positions 0 value with
      | [] => Ok None
      | [i] => let floor := firstn i value in
               let ceil := skipn (S i) value in
               if is_valid_decimal floor && is_valid_decimal ceil then Ok (Some (floor, ceil)) else Ok None
      | _ => Err UnboundLocalError
      end
  end.

(** discretize.py:244-252 [_str_to_floor_ceil]: unpacking None is a TypeError, a bad number a ValueError *)
Definition str_to_floor_ceil (value : str) : res (fval * fval) :=
  fc <- (if has_char (ch "<") value then Ok (Some ($"-inf", del_char (ch "<") value))
         else if has_char (ch ">") value then Ok (Some (del_char (ch ">") value, $"inf"))
         else find_floor_ceil value) ;;
  match fc with
  | None => Err TypeError
  | Some (f, c) => match parse_float f, parse_float c with
                   | Some a, Some b => Ok (a, b)
                   | _, _ => Err ValueError
                   end
  end.

(** discretize.py:228-230 [_str_to_interval]; pandas rejects left > right *)
Definition str_to_interval (s : str) : res interval :=
  '(a, b) <- str_to_floor_ceil s ;;
  if fle a b then Ok (mkint a b) else Err ValueError.

(** ** Fitting (discretize.py:64-107) *)

(** One edge chosen by pandas: the number used to sort the training values into bins, and the rounded one shown in the interval
    (pandas rounds the ends of the intervals it returns, [precision=self.names_precision], but bins by the unrounded edges). *)
(* an edge computed by pandas: exact and as shown, discretize.py:141-163 *)
Record edge := mkedge { e_at : Q; e_shown : bound }.
(* consecutive edges *)
Fixpoint edge_pairs {A} (edges : list A) : list (A * A) :=
  match edges with
  | a :: ((b :: _) as t) => (a, b) :: edge_pairs t
  | _ => []
  end.
(** Is [v] put into the bin between two edges? Lower edge excluded, except for the first bin ([include_lowest] in [pd.qcut];
    [pd.cut] moves its first edge below the minimum, so there it makes no difference) *)
(* pd.cut: which bin a training value falls in, discretize.py:141-163 *)
Definition sorted_into (first : bool) (b : edge * edge) (v : pyval) : bool :=
  match num_of v with
  | Some x => (if first then Qle_bool (e_at (fst b)) x else Qlt_b (e_at (fst b)) x) && Qle_bool x (e_at (snd b))
  | None => false
  end.
(* pd.cut(include_lowest): the first bin, discretize.py:141-163 *)
Definition mark_first {A} (l : list A) : list (bool * A) :=
  match l with [] => [] | a :: t => (true, a) :: map (pair false) t end.
(* discretize.py:236-242 [_interval_to_str] *)
Definition shown_bin (b : edge * edge) : bound * bound := (e_shown (fst b), e_shown (snd b)).
(** discretize.py:141-163 [_pandas_cut]: the shown intervals of the bins that hold a training value, in increasing order *)
Definition pandas_bins (edges : list edge) (vs : list pyval) : list (bound * bound) :=
  map (fun p => shown_bin (snd p)) (filter (fun p => existsb (sorted_into (fst p) (snd p)) vs) (mark_first (edge_pairs edges))).
(** discretize.py:81-82: the first bin is extended to -inf, the last to +inf (in this order, also when there is one bin) *)
Definition extend_bins (bins : list (bound * bound)) : res (list (bound * bound)) :=
  match bins with
  | [] => Err IndexError
  | (_, r) :: t =>
      let b1 := (BNInf, r) :: t in
      match rev b1 with
      | [] => Err IndexError
      | (l, _) :: rt => Ok (rev ((l, BPInf) :: rt))
      end
  end.
(** discretize.py:81-83: labels of the fitted bins *)
Definition fit_labels (bins : list (bound * bound)) : res (list str) :=
  b <- extend_bins bins ;; Ok (map (fun p => interval_to_str (fst p) (snd p)) b).

(** A fitted transformer: bins_ (None = never fitted) and thresholds_ (numpy engine), both dicts feature -> ... *)
(* discretize.py:14-20 [BinTransformer]: bins_ and the engine *)
Record bin_transformer := mkbt { bt_bins : option (list (pyval * list str)); bt_thresholds : list (pyval * list Q) }.
(* discretize.py:14-20 [BinTransformer()] *)
Definition bt_empty : bin_transformer := mkbt None [].
(** discretize.py:27-28 [__bool__] *)
Definition bt_bool (b : bin_transformer) : bool := match bt_bins b with Some (_ :: _) => true | _ => false end.

(** ** Transforming (discretize.py:177-204) *)

(** an object / category column: it holds some text, or booleans mixed with other values (missing ones included) *)
(* discretize.py:206-223, 322-338: column of text *)
Definition is_text_col (vs : list pyval) : bool :=
  existsb (fun v => match v with PStr _ => true | _ => false end) vs
  || (existsb (fun v => match v with PBool _ => true | _ => false end) vs
      && existsb (fun v => match v with PBool _ => false | _ => true end) vs).

(** Do (a,b] and (c,d] share a point? *)
(* pd.Interval.overlaps *)
Definition overlaps (i j : interval) : bool :=
  let lo := if fle (i_left i) (i_left j) then i_left j else i_left i in
  let hi := if fle (i_right i) (i_right j) then i_right i else i_right j in
  flt lo hi.
(* pandas IntervalIndex must not overlap *)
Fixpoint any_overlap (l : list interval) : bool :=
  match l with [] => false | i :: t => existsb (overlaps i) t || any_overlap t end.

(** pandas engine, 192-195: [pd.cut] with an IntervalIndex (ValueError if intervals overlap), then label lookup; a value in no
    interval becomes nan *)
(* pd.cut(values, IntervalIndex), discretize.py:177-204 *)
Definition cut_value (ivs : list (interval * str)) (v : pyval) : pyval :=
  match num_of v with
  | None => PNaN
  | Some x => match find (fun p => in_interval x (fst p)) ivs with Some p => PStr (snd p) | None => PNaN end
  end.
(* discretize.py:177-204 [transform] with engine pandas *)
Definition transform_pandas (bins : list str) (vs : list pyval) : res (list pyval) :=
  ivs <- mapM str_to_interval bins ;;
  if any_overlap ivs then Err ValueError else Ok (map (cut_value (combine ivs bins)) vs).

(** numpy engine, 185-189: [np.digitize] (number of thresholds <= x; nan sorts last), clipped *)
(* np.digitize, discretize.py:177-204 *)
Definition digitize (ths : list Q) (v : pyval) : nat :=
  match num_of v with
  | Some x => length (filter (fun t => Qle_bool t x) ths)
  | None => length ths
  end.
(* np.clip of the bin number, discretize.py:177-204 *)
Definition clip_idx (nbins i : nat) : nat := Nat.min (Nat.max i 1) nbins - 1.
(* discretize.py:177-204 [transform] with engine numpy *)
Definition transform_numpy (ths : list Q) (bins : list str) (vs : list pyval) : res (list pyval) :=
  mapM (fun v => match nth_error bins (clip_idx (length bins) (digitize ths v)) with
                 | Some s => Ok (PStr s) | None => Err IndexError end) vs.

(* dict lookup *)
Definition assoc {A} (f : pyval) (l : list (pyval * A)) : option A :=
  option_map snd (find (fun p => py_eq (fst p) f) l).

(* discretize.py:180-195 [_transform_feat] *)
Definition transform_feat (bt : bin_transformer) (f : pyval) (bins : list str) (vs : list pyval) : res (list pyval) :=
  match assoc f (bt_thresholds bt) with
  | Some ths => transform_numpy ths bins vs
  | None => transform_pandas bins vs
  end.

(** discretize.py:322-338 [_find_transformed]: binned features whose column is text; ValueError if such a column has a value that
    is not one of the bins *)
Definition find_transformed (bins : list (pyval * list str)) (fr : frame) : res (list pyval) :=
  let txt := filter (fun p => has_col fr (fst p) && is_text_col (column fr (fst p))) bins in
  if forallb (fun p => forallb (fun v => match v with PStr s => str_in s (snd p) | _ => false end) (column fr (fst p))) txt
  then Ok (map fst txt) else Err ValueError.

(** assign a column: [res[feat] = values] *)
(* df[feat] = ... *)
Definition set_col (fr : frame) (f : pyval) (vs : list pyval) : frame :=
  match col_pos (fcols fr) f with
  | None => fr
  | Some j => with_rows fr (map (fun p : row * pyval => mkrow (rlab (fst p)) (set_nth j (snd p) (rcells (fst p))))
                                (combine (frows fr) vs))
  end.

(* discretize.py:196-204: the loop of transform *)
Fixpoint transform_cols (bt : bin_transformer) (done : list pyval) (bins : list (pyval * list str)) (fr : frame) : res frame :=
  match bins with
  | [] => Ok fr
  | (f, b) :: t =>
      if has_col fr f && negb (existsb (fun g => py_eq g f) done)
      then vs <- transform_feat bt f b (column fr f) ;; transform_cols bt done t (set_col fr f vs)
      else transform_cols bt done t fr
  end.
(** discretize.py:177-204 [transform]; [self.bins_.items()] on None is an AttributeError *)
Definition transform (bt : bin_transformer) (fr : frame) : res frame :=
  match bt_bins bt with
  | None => Err AttributeError
  | Some bins => done <- find_transformed bins fr ;; transform_cols bt done bins fr
  end.

(** discretize.py:206-223 [find_continuous_feats]; numeric dtype: no text, no bool, at least one number *)
Definition is_numeric_col (vs : list pyval) : bool :=
  forallb (fun v => match v with PInt _ | PDec _ _ | PNaN => true | _ => false end) vs.
(* discretize.py:206-223 [find_continuous_feats] *)
Definition find_continuous_feats (nbins : option Z) (fr : frame) (ignore : list pyval) : list pyval :=
  match nbins with
  | None => []
  | Some n => if (n =? 0)%Z then [] else
      filter (fun f => is_numeric_col (column fr f)
                       && (n <? Z.of_nat (length (unique (column fr f))))%Z
                       && negb (existsb (fun g => py_eq g f) ignore)) (fcols fr)
  end.

(** discretize.py:91-107 [fit], pandas engine; [cut n column] gives the edges pandas chooses for a column and a number of bins
    ([pd.qcut], or [pd.cut] if that gives fewer than two bins; Cut.v defines them). Bins are stored only if there are at least two.
    A negative number of bins makes [np.linspace] raise as soon as there is a feature to cut (-1: [bins[0]] of no bins). *)
Definition fit_bins (cut : Z -> list pyval -> list edge) (nbins : option Z) (fr : frame) (ignore : list pyval)
  : res bin_transformer :=
  let n := match nbins with Some n => n | None => 0%Z end in
  bs <- mapM (fun f => _ <- (if (n <? -1)%Z then Err ValueError else if (n <? 0)%Z then Err IndexError else Ok tt) ;;
                       b <- fit_labels (pandas_bins (cut n (column fr f)) (column fr f)) ;; Ok (f, b)) (find_continuous_feats nbins fr ignore) ;;
  Ok (mkbt (Some (filter (fun p => 2 <=? length (snd p)) bs)) []).

(** discretize.py:281-304 [construct_from_ruleset]: only what can fail: every condition value is passed to find_floor_ceil, which
    calls [value.split], an AttributeError for a value that is not text; only then are the ranges sorted by [float(floor)] (the key is
    computed for a single range too), a ValueError for the first floor that is no number.
    The constructed transformer is returned, not stored (abstract_ruleset_classifier.py:418-419 drops it). *)
Definition range_of (c : cond) : res (option (str * str)) :=
  match cval c with
  | PStr s => find_floor_ceil s
  | _ => Err AttributeError
  end.
(* discretize.py:301-302: the sort key of a range *)
Definition range_key (o : option (str * str)) : res unit :=
  match o with
  | None => Ok tt
  | Some (f, _) => match parse_float f with Some _ => Ok tt | None => Err ValueError end
  end.
(* discretize.py:281-304 [construct_from_ruleset] *)
Definition construct_from_ruleset (rs : list rule) : res unit :=
  fcs <- mapM range_of (get_conds rs) ;; _ <- mapM range_key fcs ;; Ok tt.
