(** * BinSpec.v : what n_discretize_bins promises (C79) *)
From Verif Require Export ClfSpec.
Open Scope nat_scope.

(** a column of integers and floats, possibly with missing values *)
Definition numeric (vs : list pyval) : Prop := forall v, In v vs -> number v.
(** more than n different values (all missing values count as one) *)
Definition more_than (n : Z) (vs : list pyval) : Prop :=
  exists us, (n < Z.of_nat (length us))%Z /\ (forall u, In u us -> In u vs) /\ ForallOrdPairs (fun u v => ~ same_label u v) us.
(** bins from the lowest to the highest: a number in an earlier bin is smaller than a number in a later one *)
Definition ascending (ivs : list (bound * bound)) : Prop :=
  ForallOrdPairs (fun b c => forall x y, contains b x -> contains c y -> (x < y)%Q) ivs.
(** the lowest bin has no lower limit and the highest no upper limit *)
Definition unlimited (ivs : list (bound * bound)) : Prop :=
  exists l r mid, ivs = (BNInf, r) :: mid ++ [(l, BPInf)].
