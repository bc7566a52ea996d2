(** * Catnap.v : the CatNap index (catnap.py) *)
From Verif Require Export Metrics.

(** catnap.py:48-50: conds, cond_maps (dict cond -> set of labels), all *)
Record catnap := mkcn { cn_conds : list cond; cn_maps : list (cond * list nat); cn_all : list nat }.

(** catnap.py:105-110 [possible_conds] *)
Definition cn_possible_conds (fr : frame) : list cond :=
  flat_map (fun f => map (mkcond f) (unique (column fr f))) (fcols fr).

(** catnap.py:15-50 [__init__] as called by the learners (no cond_subset, class_feat given).
    [c.covers(df)] cannot fail here because c's feature is a column. *)
Definition cn_make (fr : frame) (cf : pyval) : res catnap :=
  x <- drop_col fr cf ;;
  let cs := cn_possible_conds x in
  Ok (mkcn cs
        (map (fun c => (c, labels (filter (cell_eq (fcols x) (cfeat c) (cval c)) (frows x)))) cs)
        (labels (frows fr))).

(** [self.cond_maps.get(c, set())]: dict lookup by Cond equality; the last insertion wins *)
(* catnap.py:59-64: self.cond_maps[cond] *)
Definition cn_get (cn : catnap) (c : cond) : list nat :=
  match find (fun p => cond_eqb (fst p) c) (rev (cn_maps cn)) with
  | Some p => snd p
  | None => []
  end.

(** catnap.py:59-64 [cond_covers] with a subset: set intersection *)
Definition cn_cond_covers (cn : catnap) (c : cond) (subset : list nat) : list nat :=
  let s := cn_get cn c in filter (fun i => nmem i s) subset.

(** catnap.py:66-73 [rule_covers] with a subset *)
Definition cn_rule_covers (cn : catnap) (r : rule) (subset : list nat) : list nat :=
  match conds r with
  | [] => filter (fun i => nmem i (cn_all cn)) subset
  | cs => let maps := map (cn_get cn) cs in
          filter (fun i => forallb (fun s => nmem i s) maps) subset
  end.

(** catnap.py:75-100 [ruleset_covers] with a subset; note the universal case: an EMPTY subset yields all labels *)
Definition cn_rs_covers (cn : catnap) (rs : list rule) (subset : list nat) : list nat :=
  if rs_isuniversal rs then match subset with [] => cn_all cn | _ => subset end
  else if rs_isnull rs then []
  else let maps := map (fun r => map (cn_get cn) (conds r)) rs in
       filter (fun i => existsb (fun m => forallb (fun s => nmem i s) m) maps) subset.

(** catnap.py:112-123 [pos_idx_neg_idx] with df given *)
Definition cn_pos_neg_idx (fr : frame) (cf pc : pyval) : list nat * list nat :=
  (labels (pos_rows fr cf pc), labels (neg_rows fr cf pc)).

(** base_functions.py:773-778 [rm_rule_covers_cn]: set differences *)
Definition set_minus (a b : list nat) : list nat := filter (fun i => negb (nmem i b)) a.
(* base_functions.py:773-778 [rm_rule_covers_cn] *)
Definition rm_rule_covers_cn (cn : catnap) (r : rule) (pos neg : list nat) : list nat * list nat :=
  (set_minus pos (cn_rule_covers cn r pos), set_minus neg (cn_rule_covers cn r neg)).
