(** * HeapSpec.v : what C57 asks of a program with several models *)
From Verif Require Export Heap.
Open Scope nat_scope.

(** the model an operation works on *)
Definition target (o : op) : option nat :=
  match o with
  | ONewClf _ _ | ONewRule _ | ONewSet _ | OCopy _ => None
  | OCall m _ | ORecal m _ _ _ _ _ _ | ORecalSet m _ _ _ _ | OEdit m _ | OInit m _ _ _ | OFit m _ _ _ _ _ _ _ _ => Some m
  end.

(** a Rule object is in use when some model's ruleset contains it *)
Definition in_use (st : mstate) (r : nat) : Prop :=
  exists m e s, nth_error (models st) m = Some e /\ ref_of e = Some s /\ In r (refs (heap_ st) s).
(** a rule argument that is text (or a list of conditions, ...), or a Rule object that exists and that no model contains yet *)
Definition unshared (st : mstate) (a : arg) : Prop :=
  match a with AObj r => r < length (hr (heap_ st)) /\ ~ in_use st r | AVal _ => True end.
(** the argument an edit stores *)
Definition stored (ed : ledit) : option arg :=
  match ed with
  | EAdd a | EInsertAt _ a | EInsert _ a | EReplaceAt _ a | EReplace _ a => Some a
  | ERemoveAt _ | ERemove _ => None
  end.

(** the two things a program must not do: put one Rule object into two places; let IREP.fit fail on an initial model that is an object *)
Definition tidy (w : world) (st : mstate) (o : op) : Prop :=
  match o with
  | OEdit _ ed => forall a, stored ed = Some a -> unshared st a
  | ONewSet l => NoDup l /\ forall r, In r l -> ~ in_use st r
  | OFit m _ _ _ _ _ hm _ _ =>
      (exists v, hm = HVal v) \/ hm = HModel m \/ snd (step w st o) = None
      \/ (exists ref a, nth_error (models st) m = Some (EClf ref a) /\ c_alg a = RIPPER_)
  | _ => True
  end.
Fixpoint tidy_run (w : world) (st : mstate) (os : list op) : Prop :=
  match os with [] => True | o :: t => tidy w st o /\ tidy_run w (fst (step w st o)) t end.

(** an operation on one model taken alone: the model is the value [v] and nothing else exists *)
Definition call_of (h : heap) (ed : ledit) : call :=
  match ed with
  | EAdd a => AddRule (obj_of h a)
  | ERemoveAt i => RemoveAt i
  | ERemove a => RemoveRule (obj_of h a)
  | EInsertAt i a => InsertAt i (obj_of h a)
  | EInsert b a => InsertRule (obj_of h b) (obj_of h a)
  | EReplaceAt i a => ReplaceAt i (obj_of h a)
  | EReplace b a => ReplaceRule (obj_of h b) (obj_of h a)
  end.
Definition set_as_clf (x : ruleset) : clf := with_rs (new_clf IREP_ default_hyper) (Some x).
Definition clf_as_set (cl : clf) (x : ruleset) : ruleset := match c_rs cl with Some y => y | None => x end.
Definition alone (w : world) (st : mstate) (o : op) (v : vmodel) : vmodel * option pyerr :=
  match o, v with
  | OCall _ k, VClf c => if plain_call k then let '(c', e) := perform w c k in (VClf c', e) else (v, no_such)
  | ORecal _ X y names ms rm d, VClf c => let '(c', e) := perform w c (Recalibrate X y names ms rm d) in (VClf c', e)
  | ORecalSet _ alpha fr cf pc, VSet x => let '(x', r) := recalibrate_run (Some 1%Z) false alpha x fr cf pc in (VSet x', failure r)
  | OEdit _ ed, VClf c => let '(c', e) := perform w c (call_of (heap_ st) ed) in (VClf c', e)
  | OEdit _ ed, VSet x => let '(c', e) := perform w (set_as_clf x) (call_of (heap_ st) ed) in (VSet (clf_as_set c' x), e)
  | OInit _ hm f p, VClf c => let '(c', e) := perform w c (InitRuleset (resolve st hm) f p) in (VClf c', e)
  | OFit _ X y cf pc names hm cnopt kwargs, VClf c =>
      let '(c', r) := fit w c X y cf pc names (resolve st hm) cnopt kwargs in (VClf c', failure r)
  | _, _ => (v, no_such)
  end.
