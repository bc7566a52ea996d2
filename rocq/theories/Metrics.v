(** * Metrics.v : helpers and metrics of base_functions.py *)
From Verif Require Export Rules.

(** ** The environment: everything the code takes from the outside *)

(** [shuf t l] : the result of the t-th [random.shuffle] applied to l (any permutation; covers every seed and the
    iteration order of sets). [e_split size n] : the value of [int(n * size)] (any rounding of the float product).
    [set_order] : iteration order of a set of values. [e_hash] : Python's hash of a tuple of strings. *)
(* everything outside the code's control: shuffles (base_functions.py:638-691), set order, hash *)
Record env := mkenv {
  shuf : nat -> list nat -> list nat;
  e_split : Q -> nat -> Z;
  set_order : list pyval -> list pyval;
  e_hash : list str -> Z }.

(** What is assumed of it. *)
(* shuffles permute; set order permutes; int(n*size) stays in range (base_functions.py:638-691) *)
Record env_ok (e : env) : Prop := mkenv_ok {
  ok_shuf : forall t l, Permutation (shuf e t l) l;
  ok_split_range : forall s n, (0 <= s)%Q -> (s <= 1)%Q -> (0 <= e_split e s n <= Z.of_nat n)%Z;
  ok_split_one : forall s n, (s == 1)%Q -> e_split e s n = Z.of_nat n;
  ok_split_lt : forall s n, (0 <= s)%Q -> (s < 1)%Q -> 0 < n -> (e_split e s n < Z.of_nat n)%Z;
  ok_set : forall l, Permutation (set_order e l) l }.

(** base_functions.py:673-691 [random_split] and 655-670 [set_shuffled_split] (same code): shuffle, then cut *)
Definition random_split (e : env) (t : nat) (size : Q) (l : list nat) : list nat * list nat :=
  let l' := shuf e t l in
  let at_ := e_split e size (length l) in
  (take at_ l', drop at_ l').

(** base_functions.py:638-652 [df_shuffled_split] *)
Definition df_shuffled_split (e : env) (t : nat) (size : Q) (rs : list row) : list row * list row :=
  let '(i1, i2) := random_split e t size (labels rs) in (loc rs i1, loc rs i2).

(** base_functions.py:694-701 [pos], [neg]; 631-635 [pos_neg_split]; KeyError without the class column *)
Definition pos_rows (fr : frame) (cf pc : pyval) : list row := filter (cell_eq (fcols fr) cf pc) (frows fr).
(* base_functions.py:699-701 [neg] *)
Definition neg_rows (fr : frame) (cf pc : pyval) : list row :=
  filter (fun r => negb (cell_eq (fcols fr) cf pc r)) (frows fr).
(* base_functions.py:631-635 [pos_neg_split] *)
Definition pos_neg_split (fr : frame) (cf pc : pyval) : res (frame * frame) :=
  if has_col fr cf then Ok (with_rows fr (pos_rows fr cf pc), with_rows fr (neg_rows fr cf pc)) else Err KeyError.
(** base_functions.py:704-711 *)
Definition num_pos (fr : frame) (cf pc : pyval) : res nat :=
  if has_col fr cf then Ok (length (pos_rows fr cf pc)) else Err KeyError.
(* base_functions.py:709-711 [num_neg] *)
Definition num_neg (fr : frame) (cf pc : pyval) : res nat :=
  if has_col fr cf then Ok (length (neg_rows fr cf pc)) else Err KeyError.

(** ** nCr (base_functions.py:714-722) *)
(** [product(range(n, n-r, -1))] : r factors n, n-1, ... (none if r <= 0) *)
(* base_functions.py:714-722 *)
Fixpoint falling (n : Z) (r : nat) : Z :=
  match r with O => 1%Z | S k => (n * falling (n - 1) k)%Z end.
(** [product(range(1, r+1))] *)
(* base_functions.py:714-722 *)
Fixpoint fact_z (r : nat) : Z :=
  match r with O => 1%Z | S k => (fact_z k * Z.of_nat r)%Z end.
(* base_functions.py:714-722 [nCr] *)
Definition nCr (n r : Z) : Z := (falling n (Z.to_nat r) / fact_z (Z.to_nat r))%Z.

(** base_functions.py:725-733 [argmin] over a total preorder given by [lt]; [None] is the IndexError of an empty list *)
Fixpoint argmin_loop {A} (lt : A -> A -> bool) (lowest : A) (lowest_i i : nat) (l : list A) : nat :=
  match l with
  | [] => lowest_i
  | v :: t => if lt v lowest then argmin_loop lt v i (S i) t else argmin_loop lt lowest lowest_i (S i) t
  end.
(* base_functions.py:725-733 [argmin] *)
Definition argmin {A} (lt : A -> A -> bool) (l : list A) : res nat :=
  match l with [] => Err IndexError | v :: _ => Ok (argmin_loop lt v 0 0 l) end.

(** base_functions.py:736-747 [i_replaced] *)
Definition i_replaced {A} (l : list A) (i : nat) (v : option A) : list A :=
  match v with
  | Some x => firstn i l ++ [x] ++ skipn (S i) l
  | None => firstn i l ++ skipn (S i) l
  end.

(** base_functions.py:750-770 [rm_covered] for one frame of the pair; [covered] is [object.covers] *)
Definition rm_covered1 (covers : frame -> res frame) (fr : frame) : res frame :=
  c <- covers fr ;; Ok (with_rows fr (drop_labels (frows fr) (labels (frows c)))).
(* base_functions.py:750-770 [rm_covered] *)
Definition rm_covered (covers : frame -> res frame) (pos neg : frame) : res (frame * frame) :=
  p <- rm_covered1 covers pos ;; n <- rm_covered1 covers neg ;; Ok (p, n).

(** ** Numbers *)

(* < on floats, idealised *)
Definition Qlt_b (a b : Q) : bool := negb (Qle_bool b a).
(* a count as a number *)
Definition qn (n : nat) : Q := inject_Z (Z.of_nat n).
(** Python division of two counts; [None] = ZeroDivisionError is dealt with by the callers *)
(* division, idealised as exact *)
Definition qdiv (a b : nat) : Q := (qn a / qn b)%Q.

(** base_functions.py:429-438 [gain], 441-454 [gain_cn]: the value is p1 * (log2 a1 - log2 a0) with a = (p+1)/(p+n+1).
    The model keeps it in the log domain: [gain2 p0 n0 p1 n1] is (a1/a0)^p1, so gain = log2 (gain2 ...), exactly. *)
Definition laplace (p n : nat) : Q := Qmake (Z.of_nat (p + 1)) (Pos.of_nat (p + n + 1)).
(* base_functions.py:429-454 [gain], [gain_cn]: log2 of this number is the gain *)
Definition gain2 (p0 n0 p1 n1 : nat) : Q :=
  Qred (Qpower (laplace p1 n1 / laplace p0 n0)%Q (Z.of_nat p1)).

(** base_functions.py:487-502 [score_accuracy]; result None is [Ok None] *)
Definition count_true (l : list bool) : nat := length (filter (fun b => b) l).
(* base_functions.py:487-588: counting over zip(actuals, preds) *)
Definition zip_and (a b : list bool) : list bool := map (fun x => fst x && snd x) (combine a b).
(* base_functions.py:487-502 [score_accuracy] *)
Definition score_accuracy (actuals preds : list bool) : res (option Q) :=
  if negb (length actuals =? length preds) then Err ValueError
  else if length actuals =? 0 then Ok None
  else Ok (Some (qdiv (length (filter (fun x => Bool.eqb (fst x) (snd x)) (combine preds actuals))) (length actuals))).
(** base_functions.py:535-548 *)
Definition score_precision (actuals preds : list bool) : res (option Q) :=
  if negb (length actuals =? length preds) then Err ValueError
  else if count_true preds =? 0 then Ok None
  else Ok (Some (qdiv (count_true (zip_and preds actuals)) (count_true preds))).
(** base_functions.py:551-564 *)
Definition score_recall (actuals preds : list bool) : res (option Q) :=
  if negb (length actuals =? length preds) then Err ValueError
  else if count_true actuals =? 0 then Ok None
  else Ok (Some (qdiv (count_true (zip_and preds actuals)) (count_true actuals))).
(** base_functions.py:581-588 [_f1] *)
Definition f1_of (p r : option Q) : option Q :=
  match p, r with
  | Some p, Some r => if Qeq_bool (p + r) 0 then None else Some (2 * p * r / (p + r))%Q
  | _, _ => None
  end.
(** base_functions.py:567-578 *)
Definition score_f1 (actuals preds : list bool) : res (option Q) :=
  if negb (length actuals =? length preds) then Err ValueError
  else p <- score_precision actuals preds ;; r <- score_recall actuals preds ;; Ok (f1_of p r).

(** base_functions.py:798-802 [stop_early] *)
Definition stop_early (n_rules n_conds n_pos n_neg : nat) (max_rules min_ruleset_samples max_total_conds : option Z) : bool :=
  ge_lim n_rules max_rules || ge_lim n_conds max_total_conds || lt_lim (n_pos + n_neg) min_ruleset_samples.
