(** * Proba.v : class statistics and probabilities (base_functions.py:288-422, base.py:254-292, utils.py:74-81) *)
From Verif Require Export Learn.

(** base_functions.py:408-422 [additive_smoothed_rates] of a pair of counts *)
Definition smoothed (alpha : Q) (a b : nat) : res (Q * Q) :=
  let denom := (qn (a + b) + alpha * 2)%Q in
  if Qeq_bool denom 0 then Err ZeroDivisionError
  else Ok ((qn a + alpha) / denom, (qn b + alpha) / denom)%Q.

(** base_functions.py:336-337, 356-357: [x / total if total else 0] *)
Definition rate (x total : nat) : Q := if total =? 0 then 0%Q else qdiv x total.

(** check.py:64-70 [_check_model_features_present] *)
Definition check_features (fr : frame) (feats : list pyval) : res unit :=
  if forallb (has_col fr) feats then Ok tt else Err IndexError.

(** base_functions.py:331-340: the statistics of one rule *)
Definition rule_class_stats (alpha : Q) (fr : frame) (cf pc : pyval) (r : rule) : res rule :=
  c <- rule_covers r fr ;;
  let num := length (frows c) in
  tp <- num_pos c cf pc ;;
  let fp := num - tp in
  sm <- smoothed alpha fp tp ;;
  Ok (mkrule (conds r) (Some (mkstats (fp, tp) (rate fp num, rate tp num) sm))).

(** base_functions.py:288-365 [recalibrate_proba]; min_samples / require_min_samples only feed code that is commented out
    (lines 367-406): see [recalibrate_min] below. Rules are mutated in place; the model returns the new ruleset. *)
Definition recalibrate (alpha : Q) (rs : ruleset) (fr : frame) (cf pc : pyval) : res ruleset :=
  _ <- check_features fr (selected_features (rs_rules rs)) ;;
  rules' <- mapM (rule_class_stats alpha fr cf pc) (rs_rules rs) ;;
  c <- rs_covers (rs_rules rs) fr ;;
  let uncovered := with_rows fr (drop_labels (frows fr) (labels (frows c))) in
  let num := length (frows uncovered) in
  tn <- num_neg uncovered cf pc ;;
  let fn := num - tn in
  sm <- smoothed alpha tn fn ;;
  Ok (mkruleset rules' (rs_possible rs) (Some (mkstats (tn, fn) (rate tn num, rate fn num) sm))).

(** base_functions.py:288-406 [recalibrate_proba] with its sample-size parameters: lines 321-323 normalise min_samples, lines 347-349
    collect the rules with too few samples; nothing reads that list, because the warnings and the early return of lines 367-406 are
    inside a string literal. *)
Definition recalibrate_min (min_samples : option Z) (require_min_samples : bool)
    (alpha : Q) (rs : ruleset) (fr : frame) (cf pc : pyval) : res ruleset :=
  let m := match min_samples with Some m => if (m <? 1)%Z then 1%Z else m | None => 1%Z end in
  rs' <- recalibrate alpha rs fr cf pc ;;
  let insufficient := filter (fun r => match rstats r with
      | Some s => (Z.of_nat (length (frows fr)) <? m)%Z || (snd (st_ns s) <? 1) | None => false end) (rs_rules rs') in
  match insufficient, require_min_samples with _, _ => Ok rs' end.
Lemma recalibrate_min_eq m q alpha rs fr cf pc : recalibrate_min m q alpha rs fr cf pc = recalibrate alpha rs fr cf pc.
Proof. unfold recalibrate_min. destruct (recalibrate alpha rs fr cf pc); reflexivity. Qed.

(** utils.py:74-81 [weighted_avg_freqs] of a list of pairs (an empty list sums to 0, giving the row (0,0)) *)
Definition qsum (l : list Q) : Q := fold_right Qplus 0%Q l.
(* utils.py:74-81 [weighted_avg_freqs] *)
Definition weighted_avg (l : list (Q * Q)) : Q * Q :=
  let a := qsum (map fst l) in
  let b := qsum (map snd l) in
  let total := (a + b)%Q in
  if Qeq_bool total 0 then (a, b) else ((a / total)%Q, (b / total)%Q).

(** [rule.smoothed_class_freqs_]; AttributeError if the rule was never calibrated *)
(* base.py:254-292: rule.smoothed_class_freqs_ *)
Definition rule_smooth (r : rule) : res (Q * Q) :=
  match rstats r with Some s => Ok (st_smooth s) | None => Err AttributeError end.

(** base.py:276-289: the probabilities of one example from its prediction and covering rules *)
Definition proba_row (unc : Q * Q) (p : bool) (cr : list rule) : res (Q * Q) :=
  if p then fr <- mapM rule_smooth cr ;; Ok (weighted_avg fr) else Ok unc.

(** base.py:254-292 [Ruleset.predict_proba]: rows (P(neg), P(pos)) and the covering rules *)
Definition rs_predict_proba (rs : ruleset) (fr : frame) : res (list (Q * Q) * list (list rule)) :=
  match rs_uncov rs with
  | None => Err AttributeError
  | Some s =>
      let unc := weighted_avg [st_smooth s] in
      '(preds, reasons) <- rs_predict_reasons (rs_rules rs) fr ;;
      probas <- mapM (fun x : bool * list rule => proba_row unc (fst x) (snd x)) (combine preds reasons) ;;
      Ok (probas, reasons)
  end.
