(** * Cut.v : the edges pandas chooses (pd.qcut / pd.cut as called by discretize.py:141-157), in exact rational arithmetic

    pandas itself is not part of /repo; these definitions follow pandas 2.x (core/reshape/tile.py). Not modelled: the rounding of
    double arithmetic inside quantiles, and pandas' limit of 20 decimals for [precision] (doubles always differ before that). *)
From Verif Require Export Discretize.
From Coq Require Import Qround Qabs.
Open Scope nat_scope.

(** the numbers of a column, sorted ([dropna] then the sorting inside [quantile]) *)
(* the numbers of a column, discretize.py:141-163 *)
Definition nums (vs : list pyval) : list Q := flat_map (fun v => match num_of v with Some x => [Qred x] | None => [] end) vs.
(* sorting, for pandas' quantile *)
Fixpoint insert_q (x : Q) (l : list Q) : list Q :=
  match l with [] => [x] | y :: t => if Qle_bool x y then x :: l else y :: insert_q x t end.
(* sorting, for pandas' quantile *)
Definition sort_q (l : list Q) : list Q := fold_right insert_q [] l.

(** [Series.quantile(i/q)], linear interpolation: position (N-1)*i/q *)
(* pandas' quantile *)
Definition at_q (s : list Q) (j : nat) : Q := nth j s (last s 0%Q).
(* pandas' quantile with linear interpolation, discretize.py:109-163 *)
Definition quantile (s : list Q) (q i : nat) : Q :=
  let h := (length s - 1) * i in
  let j := h / q in
  Qred (at_q s j + (at_q s (S j) - at_q s j) * (Z.of_nat (h mod q) # Pos.of_nat q))%Q.
(* discretize.py:109-163: n+1 equally spaced quantiles *)
Definition quantiles (s : list Q) (q : nat) : list Q := map (quantile s q) (seq 0 (S q)).

(** tile.py [_bins_to_cuts]: repeated edges are dropped, unless there are just two edges *)
Definition drop_repeated (edges : list Q) : list Q :=
  if length edges =? 2 then edges else dedup_by Qeq_bool [] edges.

(** tile.py [_nbins_to_bins]: equal widths, the first edge moved down by 0.1% of the range (minimum < maximum here) *)
Definition equal_width (s : list Q) (q : nat) : list Q :=
  let mn := hd 0%Q s in let mx := last s 0%Q in
  Qred (mn - (mx - mn) * (1 # 1000))%Q :: map (fun i => Qred (mn + (mx - mn) * (Z.of_nat i # Pos.of_nat q)))%Q (seq 1 q).

(** [np.rint]: round half to even *)
(* round half to even *)
Definition rint (x : Q) : Z :=
  let f := Qfloor x in
  match Qcompare (x - inject_Z f) (1 # 2) with
  | Lt => f
  | Gt => (f + 1)%Z
  | Eq => if Z.even f then f else (f + 1)%Z
  end.
(** tile.py [_round_frac]: [precision] decimals, counted from the first non-zero decimal if |x| < 1. The result is n * 10^-d. *)
Fixpoint lead0_from (fuel k : nat) (x : Q) : nat :=
  match fuel with
  | O => k
  | S f => if Qle_bool 1 (Qabs x * inject_Z (pow10z (S k))) then k else lead0_from f (S k) x
  end.
(* pandas _round_frac *)
Definition lead0 (x : Q) : nat := lead0_from (Pos.size_nat (Qden x)) 0 x.
(* pandas _round_frac, called by pd.qcut / pd.cut (discretize.py:141-163) *)
Definition round_frac (p : nat) (x : Q) : Z * nat :=
  if Qeq_bool x 0 then (0%Z, 0) else let d := p + lead0 x in (rint (x * inject_Z (pow10z d)), d).
(* pandas _round_frac *)
Definition rval (r : Z * nat) : Q := qdec (fst r) (snd r).

(** tile.py [_infer_precision]: the first precision from [base] on that keeps all the edges different *)
Fixpoint all_differ (l : list Q) : bool :=
  match l with [] => true | x :: t => negb (existsb (Qeq_bool x) t) && all_differ t end.
(* pandas _infer_precision *)
Fixpoint infer_from (fuel p : nat) (edges : list Q) : option nat :=
  match fuel with
  | O => None
  | S f => if all_differ (map (fun x => rval (round_frac p x)) edges) then Some p else infer_from f (S p) edges
  end.
(* pandas _infer_precision *)
Definition enough (edges : list Q) : nat := fold_right (fun b n => Pos.size_nat (Qden (snd b) * Qden (fst b)) + n) 1 (edge_pairs edges).
(* pandas _infer_precision, called by pd.qcut / pd.cut (discretize.py:141-163) *)
Definition infer_precision (base : nat) (edges : list Q) : nat :=
  match infer_from (enough edges) base edges with Some p => p | None => base end.

(** Python's repr of the float n * 10^-d: at least one decimal, no trailing zeros, exponent below 1e-4 and from 1e16 on *)
(* repr(float) *)
Fixpoint strip0 (fuel : nat) (n : Z) (d : nat) : Z * nat :=
  match fuel, d with
  | S f, S d' => if (n mod 10 =? 0)%Z then strip0 f (n / 10) d' else (n, d)
  | _, _ => (n, d)
  end.
(* repr(float) *)
Fixpoint trail0 (fuel : nat) (n : Z) (z : nat) : Z * nat :=
  match fuel with
  | S f => if (n mod 10 =? 0)%Z then trail0 f (n / 10) (S z) else (n, z)
  | O => (n, z)
  end.
(* repr(float) *)
Definition ndigits (n : Z) : nat := length (n_str (Z.abs_N n)).
(* repr(float) of an interval end, discretize.py:236-242 *)
Definition float_bound (r : Z * nat) : bound :=
  let '(n, d) := strip0 (snd r) (fst r) (snd r) in
  if (n =? 0)%Z then BNum 0 1
  else if (d =? 0) && (pow10z 16 <=? Z.abs n)%Z then
    let '(m, z) := trail0 (ndigits n) n 0 in BExp m (ndigits m - 1) (Z.of_nat (ndigits m - 1) + Z.of_nat z)
  else if (d =? 0) then BNum (10 * n) 1
  else if (Z.abs n * pow10z 4 <? pow10z d)%Z then BExp n (ndigits n - 1) (Z.of_nat (ndigits n - 1) - Z.of_nat d)
  else BNum n d.

(** tile.py [_format_labels]: shown edges; with [include_lowest] the first one is moved down by 10^-precision *)
Definition minus_unit (p : nat) (r : Z * nat) : Z * nat :=
  let d := Nat.max (snd r) p in ((fst r * pow10z (d - snd r) - pow10z (d - p))%Z, d).
(* labels of pd.qcut / pd.cut, discretize.py:141-163 *)
Definition show_edges (include_lowest : bool) (edges : list Q) : list edge :=
  let p := infer_precision 2 edges in
  match edges with
  | [] => []
  | x :: t => mkedge x (float_bound (if include_lowest then minus_unit p (round_frac p x) else round_frac p x))
              :: map (fun y => mkedge y (float_bound (round_frac p y))) t
  end.

(** discretize.py:141-157 (names_precision is 2): [pd.qcut(.., duplicates="drop")]; if that makes fewer than two different bins
    (missing values counting as one), [pd.cut]. *)
Definition has_missing (vs : list pyval) : bool := existsb (fun v => match num_of v with None => true | Some _ => false end) vs.
(* discretize.py:141-163 [_pandas_cut] *)
Definition pandas_cut (n : Z) (vs : list pyval) : list edge :=
  let s := sort_q (nums vs) in
  let q := Z.to_nat n in
  let qcut := show_edges true (drop_repeated (quantiles s q)) in
  if length (pandas_bins qcut vs) + (if has_missing vs then 1 else 0) <? 2
  then show_edges false (drop_repeated (equal_width s q))
  else qcut.

(** discretize.py:109-139 [_numpy_cut] (names_precision is 2): the thresholds. Rounded quantiles; if some coincide, rounded equal-width
    edges (kept even if they coincide); if all coincide, the minimum and the maximum, unless these are equal: then the bins are the
    text 'no variation', whose [.right] (line 81) is an AttributeError. *)
Definition cents_of (x : Q) : Z * nat := (rint (x * 100), 2).
(* discretize.py:109-139 [_numpy_cut] *)
Definition numpy_cut (n : Z) (vs : list pyval) : res (list (Z * nat)) :=
  let s := sort_q (nums vs) in
  let q := Z.to_nat n in
  let ths := map cents_of (quantiles s q) in
  let different := length (dedup_by Qeq_bool [] (map rval ths)) in
  let mn := hd 0%Q s in let mx := last s 0%Q in
  if different <? 2 then
    (if Qeq_bool mn mx then Err AttributeError else Ok [cents_of mn; cents_of mx])  (* unrounded in the code; one bin, never stored *)
  else if different <? length ths then
    Ok (map (fun i => cents_of (mn + (mx - mn) * (Z.of_nat i # Pos.of_nat q)))%Q (seq 0 (S q)))
  else Ok ths.
(** discretize.py:68-88, 98-106 with engine="numpy": labels and thresholds of one feature; stored only if there are two bins *)
Definition numpy_fit (n : Z) (vs : list pyval) : res (option (list Q * list str)) :=
  ths <- numpy_cut n vs ;;
  b <- fit_labels (edge_pairs (map float_bound ths)) ;;
  Ok (if 2 <=? length b then Some (map rval ths, b) else None).
