(** * Heap.v : the mutable objects behind several models (C57)
    Rule objects, Python lists of rules and Ruleset objects live in a heap and are shared by reference; classifiers hold a reference to
    their Ruleset. Everything else an API call touches is a value as in Classifier.v.
    Simplifications: Cond objects and the [conds] list of a Rule are values (no code writes to those of a rule that is part of a model:
    base_functions.py:150-169,234-253 pop conditions of deep copies only); a learned ruleset gets one Rule object per position. *)
From Verif Require Export SessionSpec.
Open Scope nat_scope.

(* base.py:21-28, 329-336: Ruleset and Rule objects by reference *)
Record rsobj := mkrsobj { o_list : nat; o_possible : option (list cond); o_uncov : option stats }.
(* base.py:21-28, 329-336: Ruleset and Rule objects by reference *)
Record heap := mkheap { hr : list rule; hl : list (list nat); hs : list rsobj }.

(** ** Reading *)
(* base.py:21-28, 329-336: Ruleset and Rule objects by reference *)
Definition get_rule (h : heap) (r : nat) : rule := nth r (hr h) (Rule_ []).
(* base.py:21-28, 329-336: Ruleset and Rule objects by reference *)
Definition get_list (h : heap) (l : nat) : list nat := nth l (hl h) [].
(* base.py:21-28, 329-336: Ruleset and Rule objects by reference *)
Definition get_obj (h : heap) (s : nat) : rsobj := nth s (hs h) (mkrsobj 0 None None).
(* base.py:21-28, 329-336: Ruleset and Rule objects by reference *)
Definition refs (h : heap) (s : nat) : list nat := get_list h (o_list (get_obj h s)).
(* base.py:21-28, 329-336: Ruleset and Rule objects by reference *)
Definition get_set (h : heap) (s : nat) : ruleset :=
  mkruleset (map (get_rule h) (refs h s)) (o_possible (get_obj h s)) (o_uncov (get_obj h s)).

(** ** Writing *)
(* base.py:21-28, 329-336: Ruleset and Rule objects by reference *)
Definition put_rule (h : heap) (r : nat) (x : rule) : heap := mkheap (set_nth r x (hr h)) (hl h) (hs h).
(* base.py:21-28, 329-336: Ruleset and Rule objects by reference *)
Definition put_list (h : heap) (l : nat) (x : list nat) : heap := mkheap (hr h) (set_nth l x (hl h)) (hs h).
(* base.py:21-28, 329-336: Ruleset and Rule objects by reference *)
Definition put_obj (h : heap) (s : nat) (o : rsobj) : heap := mkheap (hr h) (hl h) (set_nth s o (hs h)).
(** new objects *)
(* base.py:21-28, 329-336: Ruleset and Rule objects by reference *)
Definition new_rule (h : heap) (r : rule) : heap * nat := (mkheap (hr h ++ [r]) (hl h) (hs h), length (hr h)).
(** a Ruleset object around existing Rule objects (base.py:24-28), its list being new *)
Definition new_obj (h : heap) (l : list nat) (p : option (list cond)) (u : option stats) : heap * nat :=
  (mkheap (hr h) (hl h ++ [l]) (hs h ++ [mkrsobj (length (hl h)) p u]), length (hs h)).
(** a Ruleset object with one new Rule object per rule *)
(* base.py:21-28, 329-336: Ruleset and Rule objects by reference *)
Definition new_set (h : heap) (x : ruleset) : heap * nat :=
  new_obj (mkheap (hr h ++ rs_rules x) (hl h) (hs h)) (seq (length (hr h)) (length (rs_rules x))) (rs_possible x) (rs_uncov x).

(** ** copy.deepcopy of a Ruleset: an object occurring twice is copied once (the memo) *)
(* copy.deepcopy's memo (irep.py:153, abstract_ruleset_classifier.py:399-412) *)
Fixpoint memo_get (memo : list (nat * nat)) (r : nat) : option nat :=
  match memo with [] => None | (a, b) :: t => if a =? r then Some b else memo_get t r end.
(* copy.deepcopy of the rules (abstract_ruleset_classifier.py:399-412) *)
Fixpoint copy_rules (h : heap) (memo : list (nat * nat)) (l : list nat) : heap * list nat :=
  match l with
  | [] => (h, [])
  | r :: t => match memo_get memo r with
              | Some r' => let '(h1, l1) := copy_rules h memo t in (h1, r' :: l1)
              | None => let '(h0, r') := new_rule h (get_rule h r) in
                        let '(h1, l1) := copy_rules h0 ((r, r') :: memo) t in (h1, r' :: l1)
              end
  end.
(* copy.deepcopy of a Ruleset (abstract_ruleset_classifier.py:399-412) *)
Definition copy_set (h : heap) (s : nat) : heap * nat :=
  let '(h1, l) := copy_rules h [] (refs h s) in
  new_obj h1 l (o_possible (get_obj h s)) (o_uncov (get_obj h s)).

(** ** The models of a program: classifiers (reference to their Ruleset, other attributes) and Ruleset objects of the user *)
(* base.py:21-28, 329-336: Ruleset and Rule objects by reference *)
Inductive entity := EClf (ref : option nat) (attrs : clf) | ESet (s : nat).
(* base.py:21-28, 329-336: Ruleset and Rule objects by reference *)
Definition ref_of (e : entity) : option nat := match e with EClf o _ => o | ESet s => Some s end.
(* base.py:21-28, 329-336: Ruleset and Rule objects by reference *)
Record mstate := mkstate { heap_ : heap; models : list entity }.

(** a model as a value *)
(* base.py:21-28, 329-336: Ruleset and Rule objects by reference *)
Inductive vmodel := VClf (cl : clf) | VSet (x : ruleset).
(* base.py:21-28, 329-336: Ruleset and Rule objects by reference *)
Definition with_rs (cl : clf) (o : option ruleset) : clf :=
  mkclf (c_alg cl) (c_hyper cl) o (c_cf cl) (c_pc cl) (c_bt cl) (c_sel cl) (c_feats cl) (c_classes cl).
(* base.py:21-28, 329-336: Ruleset and Rule objects by reference *)
Definition clf_view (h : heap) (ref : option nat) (attrs : clf) : clf := with_rs attrs (option_map (get_set h) ref).
(* base.py:21-28, 329-336: Ruleset and Rule objects by reference *)
Definition view (h : heap) (e : entity) : vmodel :=
  match e with EClf o a => VClf (clf_view h o a) | ESet s => VSet (get_set h s) end.
(* base.py:21-28, 329-336: Ruleset and Rule objects by reference *)
Definition model_views (st : mstate) : list vmodel := map (view (heap_ st)) (models st).

(** ** Arguments *)
(** a rule argument: an existing Rule object, or something from which asrule (base.py:516-530) makes a new one *)
Inductive arg := AObj (r : nat) | AVal (o : obj).
(* base.py:21-28, 329-336: Ruleset and Rule objects by reference *)
Definition obj_of (h : heap) (a : arg) : obj := match a with AObj r => ORule (get_rule h r) | AVal o => o end.
(* base.py:21-28, 329-336: Ruleset and Rule objects by reference *)
Definition arg_value (h : heap) (a : arg) : res rule := rule_arg (obj_of h a).
(** asrule returns the object itself, or a new Rule *)
(* base.py:21-28, 329-336: Ruleset and Rule objects by reference *)
Definition place (h : heap) (a : arg) (r : rule) : heap * nat := match a with AObj n => (h, n) | AVal _ => new_rule h r end.

(** a model argument: text / None / something else; a model of the program (possibly the classifier itself); a list of rules *)
(* base.py:21-28, 329-336: Ruleset and Rule objects by reference *)
Inductive hmodel := HVal (m : model_arg) | HModel (k : nat) | HSeq (l : list arg).
(* base.py:21-28, 329-336: Ruleset and Rule objects by reference *)
Definition resolve (st : mstate) (hm : hmodel) : model_arg :=
  match hm with
  | HVal m => m
  | HModel k => match nth_error (models st) k with
                | Some (EClf o _) => MClf (option_map (get_set (heap_ st)) o)
                | Some (ESet s) => MRuleset (get_set (heap_ st) s)
                | None => MNone
                end
  | HSeq l => MSeq (map (obj_of (heap_ st)) l)
  end.
(* abstract_ruleset_classifier.py:399-412, base.py:533-555: which object a model argument is *)
Definition model_ref (st : mstate) (hm : hmodel) : option nat :=
  match hm with HModel k => match nth_error (models st) k with Some e => ref_of e | None => None end | _ => None end.

(** abstract_ruleset_classifier.py:398-411 [_ruleset_frommodel]: the deep copy *)
Definition h_frommodel (st : mstate) (hm : hmodel) : res (heap * nat) :=
  x <- frommodel (resolve st hm) ;;
  if falsy (resolve st hm) then Ok (new_set (heap_ st) x)
  else match model_ref st hm with
       | Some s => Ok (copy_set (heap_ st) s)
       | None => Ok (new_set (heap_ st) x)
       end.

(** irep.py:153: [Ruleset() if not initial_model else asruleset(initial_model)]: here the object itself is kept *)
Fixpoint place_all (h : heap) (l : list arg) : heap * list nat :=
  match l with
  | [] => (h, [])
  | a :: t => match arg_value h a with
              | Ok r => let '(h1, n) := place h a r in let '(h2, ns) := place_all h1 t in (h2, n :: ns)
              | Err _ => (h, [])
              end
  end.
(* irep.py:153 *)
Definition h_start (st : mstate) (hm : hmodel) : res (heap * nat) :=
  x <- irep_start (resolve st hm) ;;
  if falsy (resolve st hm) then Ok (new_set (heap_ st) x)
  else match model_ref st hm with
       | Some s => Ok (heap_ st, s)
       | None => match hm with
                 | HSeq l => let '(h1, ns) := place_all (heap_ st) l in Ok (new_obj h1 ns None None)
                 | _ => Ok (new_set (heap_ st) x)
                 end
       end.

(** ** Editing in place (base.py:181-210) *)
Inductive ledit := EAdd (a : arg) | ERemoveAt (i : Z) | ERemove (a : arg) | EInsertAt (i : Z) (a : arg) | EInsert (before a : arg)
  | EReplaceAt (i : Z) (a : arg) | EReplace (old a : arg).
(* base.py:181-210: edits of the list of rule objects *)
Definition edit_refs (h : heap) (l : list nat) (ed : ledit) : res (heap * list nat) :=
  let vals := map (get_rule h) l in
  match ed with
  | EAdd a => r <- arg_value h a ;; let '(h1, n) := place h a r in Ok (h1, l ++ [n])
  | ERemoveAt i => k <- check_index i vals ;; Ok (h, remove_nth k l)
  | ERemove a => r <- arg_value h a ;; k <- find_rule r vals ;; Ok (h, remove_nth k l)
  | EInsertAt i a => k <- check_index i vals ;; r <- arg_value h a ;;
                     let '(h1, n) := place h a r in Ok (h1, firstn k l ++ n :: skipn k l)
  | EInsert b a => q <- arg_value h b ;; k <- find_rule q vals ;; r <- arg_value h a ;;
                   let '(h1, n) := place h a r in Ok (h1, firstn k l ++ n :: skipn k l)
  | EReplaceAt i a => k <- check_index i vals ;; r <- arg_value h a ;;
                      let '(h1, n) := place h a r in Ok (h1, set_nth k n l)
  | EReplace b a => q <- arg_value h b ;; k <- find_rule q vals ;; r <- arg_value h a ;;
                    let '(h1, n) := place h a r in Ok (h1, set_nth k n l)
  end.
(** the list object of the Ruleset is mutated *)
(* abstract_ruleset_classifier.py:369-388: edits on objects *)
Definition edit_obj (h : heap) (s : nat) (ed : ledit) : heap * res unit :=
  match edit_refs h (refs h s) ed with
  | Ok (h1, l) => (put_list h1 (o_list (get_obj h s)) l, Ok tt)
  | Err e => (h, Err e)
  end.

(** ** Recalibration in place (base_functions.py:288-365) *)
(** 329-340: the statistics of each Rule object are overwritten, one after the other *)
(* base_functions.py:331-340: statistics stored in the rule objects *)
Fixpoint recal_rules (alpha : Q) (fr : frame) (cf pc : pyval) (h : heap) (l : list nat) : heap * res unit :=
  match l with
  | [] => (h, Ok tt)
  | r :: t => match rule_class_stats alpha fr cf pc (get_rule h r) with
              | Ok x => recal_rules alpha fr cf pc (put_rule h r x) t
              | Err e => (h, Err e)
              end
  end.
(* base_functions.py:288-365: recalibration on objects *)
Definition recal_obj (alpha : Q) (h : heap) (s : nat) (fr : frame) (cf pc : pyval) : heap * res unit :=
  match check_features fr (selected_features (rs_rules (get_set h s))) with
  | Err e => (h, Err e)
  | Ok _ =>
      let '(h1, o) := recal_rules alpha fr cf pc h (refs h s) in
      match o with
      | Err e => (h1, Err e)
      | Ok _ =>
          match (c <- rs_covers (rs_rules (get_set h1 s)) fr ;;
                 let uncovered := with_rows fr (drop_labels (frows fr) (labels (frows c))) in
                 let num := length (frows uncovered) in
                 tn <- num_neg uncovered cf pc ;;
                 sm <- smoothed alpha tn (num - tn) ;;
                 Ok (mkstats (tn, num - tn) (rate tn num, rate (num - tn) num) sm)) with
          | Err e => (h1, Err e)
          | Ok u => (put_obj h1 s (mkrsobj (o_list (get_obj h1 s)) (o_possible (get_obj h1 s)) (Some u)), Ok tt)
          end
      end
  end.

(** ** Training: whether [fit] gets as far as storing a learned ruleset (for RIPPER: that of stage 1) *)
(* irep.py:94-235, ripper.py:115-390: the fit call, on objects *)
Definition trains (w : world) (cl : clf) (X : data) (y : option ydata) (cf pc : option pyval) (names : option (list pyval))
    (init : model_arg) (cnopt : bool) : bool :=
  match preprocess_training (w_cut w) (h_nbins (c_hyper cl)) X y cf pc names with
  | Err _ => false
  | Ok (df, f, p, _) =>
      match frommodel init with
      | Err _ => false
      | Ok x =>
          match c_alg cl with
          | IREP_ => match irep_train (w_env w) (c_hyper cl) cnopt df f p x with Ok _ => true | Err _ => false end
          | RIPPER_ => match fst (ripper_trace (w_env w) (c_hyper cl) cnopt df f p x) with Some _ => true | None => false end
          end
      end
  end.

(** ** Operations of a program *)
(* the calls of the API, abstract_ruleset_classifier.py:67-434 *)
Inductive op :=
| ONewClf (a : alg) (hy : hyper)                       (* IREP(...) / RIPPER(...) *)
| ONewRule (cs : list cond)                            (* r = Rule([...]) *)
| ONewSet (l : list nat)                               (* Ruleset([r1, r2, ...]) of Rule objects *)
| OCopy (m : nat)                                      (* classifier.copy() / copy.deepcopy(ruleset) *)
| OCall (m : nat) (k : call)                           (* predict, predict_proba, score, rule_stats, set_params of a classifier *)
| ORecal (m : nat) (X : data) (y : option ydata) (names : option (list pyval)) (ms : option Z) (rm d : bool)
| ORecalSet (m : nat) (alpha : Q) (fr : frame) (cf pc : pyval)  (* base_functions.recalibrate_proba(ruleset, ...) *)
| OEdit (m : nat) (ed : ledit)                         (* add_rule, remove_rule_at, ...: of a classifier or of a Ruleset *)
| OInit (m : nat) (hm : hmodel) (f p : pyval)          (* init_ruleset *)
| OFit (m : nat) (X : data) (y : option ydata) (cf pc : option pyval) (names : option (list pyval)) (hm : hmodel) (cnopt : bool)
    (kwargs : list (param * pvalue)).

(** calls of OCall: those that leave the ruleset alone *)
(* calls that do not touch another model's objects *)
Definition plain_call (k : call) : bool :=
  match k with
  | Predict _ _ | PredictReasons _ _ | PredictProba _ _ | Score _ _ _ | RuleStats _ _ _ _ | SetParams _ => true
  | _ => false
  end.

(* base.py:21-28, 329-336: Ruleset and Rule objects by reference *)
Definition set_model (st : mstate) (h : heap) (m : nat) (e : entity) : mstate := mkstate h (set_nth m e (models st)).
(* base.py:21-28, 329-336: Ruleset and Rule objects by reference *)
Definition add_model (st : mstate) (h : heap) (e : entity) : mstate := mkstate h (models st ++ [e]).
(* base.py:21-28, 329-336: Ruleset and Rule objects by reference *)
Definition no_such : option pyerr := Some NameError.

(** one operation: the state afterwards and the exception raised *)
(* one API call on the object graph, abstract_ruleset_classifier.py:67-434 *)
Definition step (w : world) (st : mstate) (o : op) : mstate * option pyerr :=
  let h := heap_ st in
  match o with
  | ONewClf a hy => (add_model st h (EClf None (new_clf a hy)), None)
  | ONewRule cs => (mkstate (fst (new_rule h (Rule_ cs))) (models st), None)
  | ONewSet l => if forallb (fun r => r <? length (hr h)) l
                 then let '(h1, s) := new_obj h l None None in (add_model st h1 (ESet s), None)
                 else (st, no_such)
  | OCopy m => match nth_error (models st) m with
               | Some (EClf (Some s) a) => let '(h1, s1) := copy_set h s in (add_model st h1 (EClf (Some s1) a), None)
               | Some (EClf None a) => (add_model st h (EClf None a), None)
               | Some (ESet s) => let '(h1, s1) := copy_set h s in (add_model st h1 (ESet s1), None)
               | None => (st, no_such)
               end
  | OCall m k => match nth_error (models st) m with
                 | Some (EClf ref a) =>
                     if plain_call k then
                       let '(c, e) := perform w (clf_view h ref a) k in (set_model st h m (EClf ref c), e)
                     else (st, no_such)
                 | _ => (st, no_such)
                 end
  | ORecal m X y names ms rm d =>
      match nth_error (models st) m with
      | Some (EClf ref a) =>
          (* abstract_ruleset_classifier.py:241-270 *)
          match c_cf a, c_pc a with
          | Some f, Some p =>
              match (if d then b <- attr (c_bt a) ;; Ok (Some b) else Ok None) with
              | Err e => (st, Some e)
              | Ok bt => match preprocess_recalibrate X y f names bt with
                         | Err e => (st, Some e)
                         | Ok df => match ref with
                                    | None => (st, Some AttributeError)
                                    | Some s => let '(h1, r) := recal_obj (h_alpha (c_hyper a)) h s df f p in
                                                (mkstate h1 (models st), failure r)
                                    end
                         end
              end
          | _, _ => (st, Some AttributeError)
          end
      | _ => (st, no_such)
      end
  | ORecalSet m alpha fr cf pc =>
      match nth_error (models st) m with
      | Some (ESet s) => let '(h1, r) := recal_obj alpha h s fr cf pc in (mkstate h1 (models st), failure r)
      | _ => (st, no_such)
      end
  | OEdit m ed =>
      match nth_error (models st) m with
      | Some e => match ref_of e with
                  | Some s => let '(h1, r) := edit_obj h s ed in (mkstate h1 (models st), failure r)
                  | None => (st, Some AttributeError)
                  end
      | None => (st, no_such)
      end
  | OInit m hm f p =>
      (* abstract_ruleset_classifier.py:352-357 *)
      match nth_error (models st) m with
      | Some (EClf ref a) =>
          match h_frommodel st hm with
          | Err e => (st, Some e)
          | Ok (h1, s) => let sel := selected_features (rs_rules (get_set h1 s)) in
                          (set_model st h1 m (EClf (Some s) (mkclf (c_alg a) (c_hyper a) None (Some f) (Some p) (c_bt a) (Some sel) (Some sel) (c_classes a))), None)
          end
      | _ => (st, no_such)
      end
  | OFit m X y cf pc names hm cnopt kwargs =>
      (* irep.py:153-235, ripper.py:182-391: the learned ruleset consists of new objects (grown from the deep copy made by
         _ruleset_frommodel); IREP stores asruleset(initial_model) itself before it trains *)
      match nth_error (models st) m with
      | Some (EClf ref a) =>
          let v := clf_view h ref a in
          let '(v', r) := fit w v X y cf pc names (resolve st hm) cnopt kwargs in
          match c_alg a, h_start st hm with
          | IREP_, Err e => (st, Some e)
          | al, start =>
              if trains w (set_fit_params v kwargs) X y cf pc names (resolve st hm) cnopt then
                match c_rs v' with
                | Some x => let '(h1, s) := new_set h x in (set_model st h1 m (EClf (Some s) v'), failure r)
                | None => (set_model st h m (EClf ref v'), failure r)
                end
              else match al, start with
                   | IREP_, Ok (h1, s) => (set_model st h1 m (EClf (Some s) v'), failure r)
                   | _, _ => (set_model st h m (EClf ref v'), failure r)
                   end
          end
      | _ => (st, no_such)
      end
  end.

(* a program: a sequence of calls *)
Fixpoint run (w : world) (st : mstate) (os : list op) : mstate :=
  match os with [] => st | o :: t => run w (fst (step w st o)) t end.
(* base.py:21-28, 329-336: Ruleset and Rule objects by reference *)
Definition nothing : mstate := mkstate (mkheap [] [] []) [].
