(** * StoreSpec.v : histories of calls on the caller's tables and labels (C93) *)
From Verif Require Export Store.
Open Scope nat_scope.

(** the object that a table / labels given by the caller are *)
Definition table_obj (X : data) : pobj := match X with DFrame fr => FrameO fr | DRows rows => RowsO rows end.
Definition label_obj (y : ydata) : pobj := match y with YSeries n ix v => SeriesO n ix v | YList v => ListO v end.
(** address [a] holds that table / those labels *)
Definition table_at (s : store) (a : nat) (X : data) : Prop := nth_error s a = Some (table_obj X).
Definition labels_at (s : store) (a : option nat) (y : option ydata) : Prop :=
  match a, y with None, None => True | Some a, Some y => nth_error s a = Some (label_obj y) | _, _ => False end.
(** every object of the first store is still there, and what it was *)
Definition untouched (s s' : store) : Prop := forall a o, nth_error s a = Some o -> nth_error s' a = Some o.

(** a call, its tables and labels given by an address ([D] = nat) or as a value *)
Inductive dcall (D Y : Type) :=
| DFit (X : D) (y : option Y) (cf pc : option pyval) (names : option (list pyval)) (init : model_arg) (cnopt : bool) (kw : list (param * pvalue))
| DPredict (X : D) (names : option (list pyval))
| DProba (X : D) (names : option (list pyval))
| DScore (metric : list bool -> list bool -> res (option Q)) (X : D) (y : Y)
| DRecal (X : D) (y : option Y) (names : option (list pyval)) (min_samples : option Z) (require_min discretize : bool)
| DStats (X : D) (y : option Y) (n_examples : option Z) (names : option (list pyval)).
Arguments DFit {D Y}. Arguments DPredict {D Y}. Arguments DProba {D Y}. Arguments DScore {D Y}. Arguments DRecal {D Y}. Arguments DStats {D Y}.
(** what a call returns; [L]: a line of rule_stats *)
Inductive outcome (L : Type) :=
| Done | Classes (l : list bool) (why : list (list rule)) | Probs (l : list (Q * Q)) (why : list (list rule)) | Value (v : option Q) | Lines (l : list L).
Arguments Done {L}. Arguments Classes {L}. Arguments Probs {L}. Arguments Value {L}. Arguments Lines {L}.
Definition then_ {A B} (g : A -> B) (x : clf * res A) : clf * res B := (fst x, y <- snd x ;; Ok (g y)).

(** the call on references, in a store *)
Definition carry_out (w : world) (cl : clf) (k : dcall nat nat) (s : store) : store * (clf * res (outcome (stat_line * option nat))) :=
  match k with
  | DFit X y cf pc names init cnopt kw => let '(s', r) := h_fit w cl X y cf pc names init cnopt kw s in (s', then_ (fun _ => Done) r)
  | DPredict X names => let '(s', r) := h_predict cl X names s in (s', then_ (fun p => Classes (fst p) (snd p)) r)
  | DProba X names => let '(s', r) := h_predict_proba cl X names s in (s', then_ (fun p => Probs (fst p) (snd p)) r)
  | DScore metric X y => let '(s', r) := h_score metric cl X y s in (s', then_ Value r)
  | DRecal X y names ms rm d => let '(s', r) := h_recalibrate cl X y names ms rm d s in (s', then_ (fun _ => Done) r)
  | DStats X y n names => let '(s', r) := h_rule_stats w cl X y n names s in (s', then_ Lines r)
  end.
(** the call on values: what the other properties are about *)
Definition on_values (w : world) (cl : clf) (k : dcall data ydata) : clf * res (outcome stat_line) :=
  match k with
  | DFit X y cf pc names init cnopt kw => then_ (fun _ => Done) (fit w cl X y cf pc names init cnopt kw)
  | DPredict X names => then_ (fun p => Classes (fst p) (snd p)) (clf_predict_reasons cl X names)
  | DProba X names => then_ (fun p => Probs (fst p) (snd p)) (clf_predict_proba cl X names)
  | DScore metric X y => then_ Value (clf_score metric cl X y)
  | DRecal X y names ms rm d => then_ (fun _ => Done) (clf_recalibrate cl X y names ms rm d)
  | DStats X y n names => then_ Lines (clf_rule_stats w cl X y n names)
  end.
(** the references of a call hold these values *)
Definition refers (s : store) (k : dcall nat nat) (v : dcall data ydata) : Prop :=
  match k, v with
  | DFit X y cf pc names init cnopt kw, DFit X' y' cf' pc' names' init' cnopt' kw' =>
      table_at s X X' /\ labels_at s y y' /\ (cf, pc, names, init, cnopt, kw) = (cf', pc', names', init', cnopt', kw')
  | DPredict X names, DPredict X' names' => table_at s X X' /\ names = names'
  | DProba X names, DProba X' names' => table_at s X X' /\ names = names'
  | DScore m X y, DScore m' X' y' => table_at s X X' /\ labels_at s (Some y) (Some y') /\ m = m'
  | DRecal X y names ms rm d, DRecal X' y' names' ms' rm' d' => table_at s X X' /\ labels_at s y y' /\ (names, ms, rm, d) = (names', ms', rm', d')
  | DStats X y n names, DStats X' y' n' names' => table_at s X X' /\ labels_at s y y' /\ (n, names) = (n', names')
  | _, _ => False
  end.
(** a line returned: the numbers are those of the line on values; its examples are a table of the store [s'] that was not in [s] *)
Definition same_line (s s' : store) (l : stat_line * option nat) (v : stat_line) : Prop :=
  l_idx (fst l) = l_idx v /\ l_str (fst l) = l_str v /\ l_coverage (fst l) = l_coverage v /\ l_n (fst l) = l_n v /\ l_perf (fst l) = l_perf v /\
  match snd l, l_examples v with
  | None, None => True
  | Some a, Some fr => nth_error s' a = Some (FrameO fr) /\ length s <= a
  | _, _ => False
  end.
Definition same_outcome (s s' : store) (o : res (outcome (stat_line * option nat))) (v : res (outcome stat_line)) : Prop :=
  match o, v with
  | Ok (Lines l), Ok (Lines l') => Forall2 (same_line s s') l l'
  | Ok Done, Ok Done => True
  | Ok (Classes p r), Ok (Classes p' r') => p = p' /\ r = r'
  | Ok (Probs p r), Ok (Probs p' r') => p = p' /\ r = r'
  | Ok (Value x), Ok (Value x') => x = x'
  | Err e, Err e' => e = e'
  | _, _ => False
  end.

(** a history of calls: after each, the store, the classifier and the outcome *)
Fixpoint carry_all (w : world) (cl : clf) (ks : list (dcall nat nat)) (s : store) : list (store * clf * res (outcome (stat_line * option nat))) :=
  match ks with
  | [] => []
  | k :: t => let '(s', (cl', o)) := carry_out w cl k s in (s', cl', o) :: carry_all w cl' t s'
  end.
Fixpoint values_all (w : world) (cl : clf) (ks : list (dcall data ydata)) : list (clf * res (outcome stat_line)) :=
  match ks with
  | [] => []
  | k :: t => let '(cl', o) := on_values w cl k in (cl', o) :: values_all w cl' t
  end.
