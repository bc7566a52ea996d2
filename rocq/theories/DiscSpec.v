(** * DiscSpec.v : vocabulary for bins (C48-C51): numbers, half-open intervals *)
From Verif Require Export Spec Discretize.
Open Scope nat_scope.

(** b < x, x <= b for an end b of a bin and a number x *)
Definition below (b : bound) (x : Q) : Prop :=
  match bound_val b with FFin q => (q < x)%Q | FNInf => True | _ => False end.
Definition at_most (x : Q) (b : bound) : Prop :=
  match bound_val b with FFin q => (x <= q)%Q | FPInf => True | _ => False end.
(** the bin (lower end exclusive, upper end inclusive) contains x *)
Definition contains (b : bound * bound) (x : Q) : Prop := below (fst b) x /\ at_most x (snd b).
(** the label of a bin *)
Definition label (b : bound * bound) : str := interval_to_str (fst b) (snd b).

(** finite ends, strictly increasing *)
Definition finite (b : bound) : Prop := exists q, bound_val b = FFin q.
Definition lower_than (a b : bound) : Prop :=
  exists p q, bound_val a = FFin p /\ bound_val b = FFin q /\ (p < q)%Q.
Fixpoint increasing (l : list bound) : Prop :=
  match l with
  | [] => True
  | a :: t => finite a /\ match t with [] => True | b :: _ => lower_than a b end /\ increasing t
  end.
(** the bins of consecutive edges, the first reaching down to -inf and the last up to +inf:
    [all_bins a [b; c; d]] = (-inf,b] (b,c] (c,+inf) *)
Definition open_ended (edges : list bound) (bins : list (bound * bound)) : Prop :=
  exists mid, edges = hd BNInf edges :: mid ++ [last edges BPInf] /\
    map fst bins = BNInf :: mid /\ map snd bins = mid ++ [BPInf].

(** what transform does to one value *)
Definition binned (bins : list (bound * bound)) (v o : pyval) : Prop :=
  match num_of v with
  | None => o = PNaN
  | Some x => (exists pre b post, bins = pre ++ b :: post /\ contains b x /\ (forall c, In c (pre ++ post) -> ~ contains c x) /\ o = PStr (label b))
              \/ ((forall b, In b bins -> ~ contains b x) /\ o = PNaN)
  end.
(** lower end inclusive, upper end exclusive *)
Definition contains_left (b : bound * bound) (x : Q) : Prop :=
  (match bound_val (fst b) with FFin q => (q <= x)%Q | FNInf => True | _ => False end) /\
  (match bound_val (snd b) with FFin q => (x < q)%Q | FPInf => True | _ => False end).
(** the value of a finite end *)
Definition bin_val (b : bound) : Q := match bound_val b with FFin q => q | _ => 0%Q end.
(** dict keys: pairwise different *)
Definition distinct_keys {A} (l : list (pyval * A)) : Prop := ForallOrdPairs (fun p q => py_eq (fst p) (fst q) = false) l.

