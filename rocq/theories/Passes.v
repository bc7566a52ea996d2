(** * Passes.v : the message "No changes were made. Halting optimization at iteration k=..." of RIPPER.fit (ripper.py:269-311, printed from
    verbosity 1 on). The text itself is not modelled, only whether it is printed and the iteration it names. *)
From Verif Require Export Classifier.

(** ripper.py:269-311: the loop of the passes, [iter] the number of the next one, [k] how many are left *)
Fixpoint halts_at (pass : nat -> list rule -> res (list rule * nat)) (k iter t : nat) (rs : list rule) : option nat :=
  match k with
  | O => None
  | S m =>
      match pass t rs with
      | Err _ => None
      | Ok (new, t') => if (negb (m =? 0)) && rs_eqb rs new then Some iter else halts_at pass m (S iter) t' new
      end
  end.
(** ripper.py:190-311: the message of stage 2, after the preparations of [ripper_trace] *)
Definition ripper_halts (e : env) (h : hyper) (cnopt : bool) (df : frame) (cf pc : pyval) (init : ruleset) : option nat :=
  if cnopt then
    match (cn <- cn_make df cf ;;
           '(p, n) <- pos_neg_split df cf pc ;;
           '(rs1, t1) <- ripper_grow_cn e h cn 0 (rs_rules init) (labels (frows p)) (labels (frows n)) ;;
           Ok (cn, labels (frows p), labels (frows n), rs1, t1)) with
    | Err _ => None
    | Ok (cn, pos, neg, rs1, t1) => halts_at (fun t rs => optimize_cn e h cn t rs pos neg) (h_k h) 1 t1 rs1
    end
  else
    match ('(p, n) <- pos_neg_split df cf pc ;;
           p' <- drop_col p cf ;; n' <- drop_col n cf ;;
           let possible := update_possible_conds (set_order e) (match rs_possible init with Some l => l | None => [] end) p' n' in
           '(rs1, t1) <- ripper_grow e h (fcols p') possible 0 (rs_rules init) (frows p') (frows n') ;;
           Ok (fcols p', possible, frows p', frows n', rs1, t1)) with
    | Err _ => None
    | Ok (cols, possible, pos, neg, rs1, t1) => halts_at (fun t rs => optimize e h cols possible t rs pos neg) (h_k h) 1 t1 rs1
    end.
(** ripper.py:101-311: the message of a whole call of fit *)
Definition fit_halts (w : world) (cl : clf) (X : data) (y : option ydata) (cf pc : option pyval) (names : option (list pyval))
    (init : model_arg) (cnopt : bool) (kwargs : list (param * pvalue)) : option nat :=
  match c_alg cl with
  | IREP_ => None
  | RIPPER_ =>
      let h := c_hyper (set_fit_params cl kwargs) in
      match preprocess_training (w_cut w) (h_nbins h) X y cf pc names with
      | Err _ => None
      | Ok (df, f, p, _) => match frommodel init with Ok x => ripper_halts (w_env w) h cnopt df f p x | Err _ => None end
      end
  end.
