(** * QuantSpec.v : vocabulary for C102: quantiles of a column, and bins around them *)
From Verif Require Export BinSpec.
From Coq Require Import Sorted Qabs Permutation.
Open Scope nat_scope.

(** [s] lists the numbers of the column [cs] in ascending order; as many as the column has values, so they are all different and none is missing *)
Definition ranked (cs : list pyval) (s : list Q) : Prop :=
  StronglySorted Qlt s /\ length s = length cs /\ forall x, In x s -> exists v y, In v cs /\ num_of v = Some y /\ (y == x)%Q.
(** [x] is the i-th of the n-quantiles of [s]: it lies the fraction i/n of the way from the first number to the last, counted in
    steps from a number to the next: [j] whole steps and the fraction r/n of the next one *)
Definition quantile_of (s : list Q) (n i : nat) (x : Q) : Prop :=
  exists j r a b, (length s - 1) * i = n * j + r /\ r < n /\ nth_error s j = Some a /\ nth_error s (S j) = Some b /\
    (x == a + (b - a) * (Z.of_nat r # Pos.of_nat n))%Q.
(** bins without gaps: each begins at the limit where the one before it ends; the first and the last are unlimited *)
Definition adjoining (ivs : list (bound * bound)) (limits : list bound) : Prop :=
  map fst ivs = BNInf :: limits /\ map snd ivs = limits ++ [BPInf].
(** the limit [b], a number with few decimals, is at most half a hundredth away from [x] *)
Definition near (b : bound) (x : Q) : Prop := exists q, bound_val b = FFin q /\ (Qabs (q - x) <= 1 # 200)%Q.
(** rounding [x] to hundredths does not matter: it is a whole number of hundredths, or no number of [s] is that close to it *)
Definition settled (s : list Q) (x : Q) : Prop := (exists z, (x == z # 100)%Q) \/ forall v, In v s -> (1 # 200 < Qabs (v - x))%Q.
(** [blocks] are the parts of [s] that lie in the bins [ivs], bin by bin *)
Definition shared_out (s : list Q) (ivs : list (bound * bound)) (blocks : list (list Q)) : Prop :=
  concat blocks = s /\ Forall2 (fun iv block => forall x, In x block -> contains iv x) ivs blocks.
(** [s] lists the numbers of the column [cs], none missing, from the least to the greatest; equal ones are repeated *)
Definition listed (cs : list pyval) (s : list Q) : Prop :=
  StronglySorted Qle s /\ exists s', Permutation s s' /\ Forall2 (fun v x => exists y, num_of v = Some y /\ (y == x)%Q) cs s'.
(** [x] is the i-th of the points that cut the way from the least number of [s] to the greatest in n equal parts *)
Definition equal_step (s : list Q) (n i : nat) (x : Q) : Prop :=
  exists a b t, (s = a :: t) /\ last s a = b /\ (x == a + (b - a) * (Z.of_nat i # Pos.of_nat n))%Q.
(** [x] is neither the least number of [s] nor the greatest, but between them *)
Definition strictly_inside (s : list Q) (x : Q) : Prop := exists a t, s = a :: t /\ (a < x)%Q /\ (x < last s a)%Q.
(** every end of a bin, but for the two unlimited ones, is near an inner point (1 <= i < n) of the kind [P] *)
Definition ends_near (n : nat) (P : nat -> Q -> Prop) (ivs : list (bound * bound)) : Prop :=
  forall l r, In (l, r) ivs ->
    (l = BNInf \/ exists i x, 0 < i < n /\ P i x /\ near l x) /\ (r = BPInf \/ exists i x, 0 < i < n /\ P i x /\ near r x).
