(** * SessionSpec.v : histories of API calls on one classifier (C13, C54, C56, C62) *)
From Verif Require Export ClfSpec.
Open Scope nat_scope.

(** calls that should not change the rules; calls that edit them; calls that start over *)
Inductive call :=
| Predict (X : data) (names : option (list pyval))
| PredictReasons (X : data) (names : option (list pyval))
| PredictProba (X : data) (names : option (list pyval))
| Score (metric : list bool -> list bool -> res (option Q)) (X : data) (y : ydata)
| RuleStats (X : data) (y : option ydata) (n : option Z) (names : option (list pyval))
| Recalibrate (X : data) (y : option ydata) (names : option (list pyval)) (min_samples : option Z) (require_min discretize : bool)
| SetParams (kw : list (param * pvalue))
| AddRule (o : obj) | RemoveAt (i : Z) | RemoveRule (o : obj) | InsertAt (i : Z) (o : obj) | InsertRule (before o : obj)
| ReplaceAt (i : Z) (o : obj) | ReplaceRule (old o : obj)
| InitRuleset (m : model_arg) (f p : pyval).

(** what a call leaves behind: the classifier, and the exception raised if any *)
Definition failure {A} (o : res A) : option pyerr := match o with Ok _ => None | Err e => Some e end.
Definition perform (w : world) (cl : clf) (k : call) : clf * option pyerr :=
  match k with
  | Predict X n => let '(c, o) := clf_predict cl X n in (c, failure o)
  | PredictReasons X n => let '(c, o) := clf_predict_reasons cl X n in (c, failure o)
  | PredictProba X n => let '(c, o) := clf_predict_proba cl X n in (c, failure o)
  | Score m X y => let '(c, o) := clf_score m cl X y in (c, failure o)
  | RuleStats X y e n => let '(c, o) := clf_rule_stats w cl X y e n in (c, failure o)
  | Recalibrate X y n ms rm d => let '(c, o) := clf_recalibrate cl X y n ms rm d in (c, failure o)
  | SetParams kw => (set_params cl kw, None)
  | AddRule o => let '(c, r) := add_rule cl o in (c, failure r)
  | RemoveAt i => let '(c, r) := remove_rule_at cl i in (c, failure r)
  | RemoveRule o => let '(c, r) := remove_rule cl o in (c, failure r)
  | InsertAt i o => let '(c, r) := insert_rule_at cl i o in (c, failure r)
  | InsertRule b o => let '(c, r) := insert_rule cl b o in (c, failure r)
  | ReplaceAt i o => let '(c, r) := replace_rule_at cl i o in (c, failure r)
  | ReplaceRule b o => let '(c, r) := replace_rule cl b o in (c, failure r)
  | InitRuleset m f p => let '(c, r) := init_ruleset cl m f p in (c, failure r)
  end.
Fixpoint perform_all (w : world) (cl : clf) (ks : list call) : clf * list (option pyerr) :=
  match ks with
  | [] => (cl, [])
  | k :: t => let '(c1, o) := perform w cl k in let '(c2, os) := perform_all w c1 t in (c2, o :: os)
  end.

Definition prediction_side (k : call) : Prop :=
  match k with
  | Predict _ _ | PredictReasons _ _ | PredictProba _ _ | Score _ _ _ | RuleStats _ _ _ _ | Recalibrate _ _ _ _ _ _ | SetParams _ => True
  | _ => False
  end.
(** the rules of a classifier: for each the list of its conditions *)
Definition rules_of (cl : clf) : option (list (list cond)) := option_map (fun x => map conds (rs_rules x)) (c_rs cl).

(** the specification machine: a plain list of rules *)
Definition outside (i : Z) {A} (l : list A) : Prop := (i < 0 \/ Z.of_nat (length l) <= i)%Z.
Definition same_text (cs ds : list cond) : Prop := length cs = length ds /\ forall s, In s (map cond_str cs) <-> In s (map cond_str ds).
(** l = a ++ x :: b where x is at index i / is the first rule that reads like the given one *)
Definition found_at (i : Z) (l a : list (list cond)) (x : list cond) (b : list (list cond)) : Prop := l = a ++ x :: b /\ Z.of_nat (length a) = i.
Definition found_first (r : list cond) (l a : list (list cond)) (x : list cond) (b : list (list cond)) : Prop :=
  l = a ++ x :: b /\ same_text x r /\ forall y, In y a -> ~ same_text y r.
Definition nowhere (r : list cond) (l : list (list cond)) : Prop := forall y, In y l -> ~ same_text y r.
(** the conditions of a rule argument (an object, or text: see C12) *)
Definition means (o : obj) (cs : list cond) : Prop := exists r, rule_arg o = Ok r /\ conds r = cs.

Inductive spec_step : call -> list (list cond) -> option pyerr -> list (list cond) -> Prop :=
| sp_predict : forall k l e, prediction_side k -> spec_step k l e l
| sp_add : forall o r l, means o r -> spec_step (AddRule o) l None (l ++ [r])
| sp_remove_at : forall i l a x b, found_at i l a x b -> spec_step (RemoveAt i) l None (a ++ b)
| sp_insert_at : forall i l a x b o r, found_at i l a x b -> means o r -> spec_step (InsertAt i o) l None (a ++ r :: x :: b)
| sp_replace_at : forall i l a x b o r, found_at i l a x b -> means o r -> spec_step (ReplaceAt i o) l None (a ++ r :: b)
| sp_remove_at_bad : forall i l, outside i l -> spec_step (RemoveAt i) l (Some IndexError) l
| sp_insert_at_bad : forall i l o, outside i l -> spec_step (InsertAt i o) l (Some IndexError) l
| sp_replace_at_bad : forall i l o, outside i l -> spec_step (ReplaceAt i o) l (Some IndexError) l
| sp_remove : forall old q l a x b, means old q -> found_first q l a x b -> spec_step (RemoveRule old) l None (a ++ b)
| sp_insert : forall old q l a x b o r, means old q -> found_first q l a x b -> means o r -> spec_step (InsertRule old o) l None (a ++ r :: x :: b)
| sp_replace : forall old q l a x b o r, means old q -> found_first q l a x b -> means o r -> spec_step (ReplaceRule old o) l None (a ++ r :: b)
| sp_remove_absent : forall old q l, means old q -> nowhere q l -> spec_step (RemoveRule old) l (Some ValueError) l
| sp_insert_absent : forall old q l o, means old q -> nowhere q l -> spec_step (InsertRule old o) l (Some ValueError) l
| sp_replace_absent : forall old q l o, means old q -> nowhere q l -> spec_step (ReplaceRule old o) l (Some ValueError) l
(* an argument that is not a rule: reported with the parser's exception, unless the index or the other rule is reported first *)
| sp_bad_add : forall o e l, rule_arg o = Err e -> spec_step (AddRule o) l (Some e) l
| sp_bad_remove : forall o e l, rule_arg o = Err e -> spec_step (RemoveRule o) l (Some e) l
| sp_bad_insert_at : forall i l a x b o e, found_at i l a x b -> rule_arg o = Err e -> spec_step (InsertAt i o) l (Some e) l
| sp_bad_replace_at : forall i l a x b o e, found_at i l a x b -> rule_arg o = Err e -> spec_step (ReplaceAt i o) l (Some e) l
| sp_bad_insert_old : forall old o e l, rule_arg old = Err e -> spec_step (InsertRule old o) l (Some e) l
| sp_bad_replace_old : forall old o e l, rule_arg old = Err e -> spec_step (ReplaceRule old o) l (Some e) l
| sp_bad_insert : forall old q l a x b o e, means old q -> found_first q l a x b -> rule_arg o = Err e -> spec_step (InsertRule old o) l (Some e) l
| sp_bad_replace : forall old q l a x b o e, means old q -> found_first q l a x b -> rule_arg o = Err e -> spec_step (ReplaceRule old o) l (Some e) l
| sp_init : forall m f p x l, frommodel m = Ok x -> spec_step (InitRuleset m f p) l None (map conds (rs_rules x))
| sp_init_bad : forall m f p e l, frommodel m = Err e -> spec_step (InitRuleset m f p) l (Some e) l.
Inductive spec_run : list call -> list (list cond) -> list (option pyerr) -> list (list cond) -> Prop :=
| run_nil : forall l, spec_run [] l [] l
| run_cons : forall k ks l o l1 os l2, spec_step k l o l1 -> spec_run ks l1 os l2 -> spec_run (k :: ks) l (o :: os) l2.

(** hyperparameters that the constructor of the class takes *)
Definition accepts (a : alg) (p : param) : Prop := match a with RIPPER_ => True | IREP_ => p <> P_k /\ p <> P_dl end.
(** a value of the parameter's type *)
Definition fits (p : param) (v : pvalue) : Prop :=
  match p, v with
  | P_prune, VQ _ | P_alpha, VQ _ | P_verbosity, VNat _ | P_k, VNat _ | P_dl, VZ _ => True
  | P_nbins, VOpt _ | P_max_rules, VOpt _ | P_min_rule_samples, VOpt _ | P_min_ruleset_samples, VOpt _ | P_max_rule_conds, VOpt _
  | P_max_total_conds, VOpt _ | P_random_state, VOpt _ => True
  | _, _ => False
  end.
