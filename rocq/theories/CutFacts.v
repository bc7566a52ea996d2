(** * CutFacts.v : pandas' edges (Cut.v) meet the assumption made of them (PrepSpec.cuts_ok) *)
From Verif Require Export Cut FitFacts.
From Coq Require Import Lqa Qround Qabs Qpower Sorting.Sorted.
Open Scope nat_scope.

(** ** sorting *)
Lemma insert_q_In x l y : In y (insert_q x l) <-> y = x \/ In y l.
Proof.
  induction l as [|a l IH]; cbn [insert_q In]; [intuition congruence|]. destruct (Qle_bool x a); cbn [In]; [intuition congruence|]. rewrite IH. tauto.
Qed.
Lemma sort_q_In l y : In y (sort_q l) <-> In y l.
Proof. unfold sort_q. induction l as [|a l IH]; cbn [fold_right In]; [tauto|]. rewrite insert_q_In, IH. intuition congruence. Qed.
Lemma insert_q_sorted x l : StronglySorted Qle l -> StronglySorted Qle (insert_q x l).
Proof.
  induction 1 as [|a l S IH F]; cbn [insert_q]; [repeat constructor|]. destruct (Qle_bool x a) eqn:E.
  - apply Qle_bool_iff in E. constructor; [constructor; auto|]. constructor; auto. eapply Forall_impl; [|exact F]. cbv beta. intros. eapply Qle_trans; eauto.
  - assert (Hxa : (a <= x)%Q). { destruct (Qlt_le_dec a x); [apply Qlt_le_weak; auto|]. apply Qle_bool_iff in q. congruence. }
    constructor; auto. apply Forall_forall. intros y Hy. apply insert_q_In in Hy. destruct Hy as [->|Hy]; auto. rewrite Forall_forall in F. auto.
Qed.
Lemma sort_q_sorted l : StronglySorted Qle (sort_q l).
Proof. unfold sort_q. induction l; cbn [fold_right]; [constructor|apply insert_q_sorted; auto]. Qed.

Lemma at_q_mono s i j : StronglySorted Qle s -> i <= j -> (at_q s i <= at_q s j)%Q.
Proof.
  intros S; revert i j. unfold at_q.
  assert (L : forall s, StronglySorted Qle s -> forall d a, In a s -> (a <= last s d)%Q).
  { clear. induction 1 as [|a l S IH F]; intros d b Hb; [contradiction|]. destruct l as [|c l].
    - destruct Hb as [->|[]]. apply Qle_refl.
    - change (last (a :: c :: l) d) with (last (c :: l) d). destruct Hb as [<-|Hb]; [|apply IH; auto].
      inversion F; subst. eapply Qle_trans; [eassumption|]. apply IH. left; auto. }
  intros i j H. destruct (Nat.lt_ge_cases j (length s)) as [J|J].
  - assert (G : forall d, (nth i s d <= nth j s d)%Q); [|apply G]. intros d. clear L. revert i j H J. induction S as [|a l S IH F]; intros i j H J; [cbn in J; lia|].
    destruct i as [|i]; destruct j as [|j]; cbn [nth]; try lia; try apply Qle_refl.
    + rewrite Forall_forall in F. apply F, nth_In. cbn in J. lia.
    + apply IH; cbn in J; lia.
  - rewrite (nth_overflow s _ J). destruct (Nat.lt_ge_cases i (length s)) as [I|I]; [|rewrite nth_overflow by auto; apply Qle_refl].
    apply L; auto. apply nth_In; auto.
Qed.

(** ** quantiles *)
Lemma frac_range a q : 0 < q -> (0 <= Z.of_nat (a mod q) # Pos.of_nat q)%Q /\ ((Z.of_nat (a mod q) # Pos.of_nat q) <= 1)%Q.
Proof.
  intros Hq. assert (M := Nat.mod_upper_bound a q ltac:(lia)). unfold Qle. cbn [Qnum Qden].
  assert (E : Z.pos (Pos.of_nat q) = Z.of_nat q) by (rewrite <- positive_nat_Z, Nat2Pos.id by lia; reflexivity). rewrite E. lia.
Qed.
Lemma quantile_mono s q i j : StronglySorted Qle s -> 0 < q -> i <= j -> (quantile s q i <= quantile s q j)%Q.
Proof.
  intros S Hq H. unfold quantile. rewrite !Qred_correct. set (hi := (length s - 1) * i). set (hj := (length s - 1) * j).
  assert (HH : hi <= hj) by (unfold hi, hj; nia). assert (D : hi / q <= hj / q) by (apply Nat.div_le_mono; lia).
  destruct (frac_range hi q Hq) as [F1 F2]. destruct (frac_range hj q Hq) as [G1 G2].
  assert (A := at_q_mono s (hi / q) (Datatypes.S (hi / q)) S ltac:(lia)). assert (B := at_q_mono s (hj / q) (Datatypes.S (hj / q)) S ltac:(lia)).
  assert (DI := Nat.div_mod hi q ltac:(lia)). assert (DJ := Nat.div_mod hj q ltac:(lia)).
  destruct (Nat.eq_dec (hi / q) (hj / q)) as [E|E].
  - rewrite E in *. assert (M : hi mod q <= hj mod q) by nia.
    assert (Z1 : ((Z.of_nat (hi mod q) # Pos.of_nat q) <= (Z.of_nat (hj mod q) # Pos.of_nat q))%Q) by (unfold Qle; cbn [Qnum Qden]; nia).
    set (u := at_q s (hj / q)) in *. set (v := at_q s (Datatypes.S (hj / q))) in *. nra.
  - assert (C := at_q_mono s (Datatypes.S (hi / q)) (hj / q) S ltac:(lia)).
    set (u := at_q s (hi / q)) in *. set (v := at_q s (Datatypes.S (hi / q))) in *. set (u' := at_q s (hj / q)) in *. set (v' := at_q s (Datatypes.S (hj / q))) in *.
    eapply Qle_trans with v; [nra|]. eapply Qle_trans; [exact C|]. nra.
Qed.
Lemma quantile_first s q : 0 < q -> (quantile s q 0 == at_q s 0)%Q.
Proof.
  intros Hq. unfold quantile. rewrite Qred_correct, Nat.mul_0_r, Nat.div_0_l, Nat.mod_0_l by lia. change (Z.of_nat 0) with 0%Z.
  setoid_replace (0 # Pos.of_nat q)%Q with 0%Q by reflexivity. lra.
Qed.
Lemma quantile_last s q : 0 < q -> (quantile s q q == at_q s (length s - 1))%Q.
Proof.
  intros Hq. unfold quantile. rewrite Qred_correct, Nat.div_mul, Nat.mod_mul by lia. change (Z.of_nat 0) with 0%Z.
  setoid_replace (0 # Pos.of_nat q)%Q with 0%Q by reflexivity. lra.
Qed.
Lemma sorted_map_seq (f : nat -> Q) a n : (forall i j, i <= j -> (f i <= f j)%Q) -> StronglySorted Qle (map f (seq a n)).
Proof.
  intros H. revert a. induction n as [|n IH]; intros a; cbn [seq map]; constructor; auto. apply Forall_forall. intros y Hy. apply in_map_iff in Hy.
  destruct Hy as (k & <- & K). apply in_seq in K. apply H. lia.
Qed.

(** ** dropping repeated edges *)
Lemma dedup_sorted seen l : StronglySorted Qle l -> (forall a b, In a seen -> In b l -> (a <= b)%Q) ->
  StronglySorted Qlt (dedup_by Qeq_bool seen l) /\ Forall (fun b => forall a, In a seen -> (a < b)%Q) (dedup_by Qeq_bool seen l).
Proof.
  revert seen. induction l as [|x l IH]; intros seen S H; cbn [dedup_by]; [split; constructor|]. inversion S as [|? ? S' F]; subst.
  destruct (existsb (fun b => Qeq_bool b x) seen) eqn:E.
  - apply IH; auto. intros; apply H; auto. right; auto.
  - assert (LT : forall a, In a seen -> (a < x)%Q).
    { intros a Ha. assert (H' := H a x Ha (or_introl eq_refl)). apply Qle_lteq in H'. destruct H' as [|H']; auto. exfalso.
      assert (X : existsb (fun b => Qeq_bool b x) seen = true) by (apply existsb_exists; exists a; split; auto; apply Qeq_bool_iff; auto). congruence. }
    destruct (IH (seen ++ [x]) S') as [I1 I2].
    { intros a b Ha Hb. apply in_app_or in Ha. destruct Ha as [Ha|[<-|[]]]; [apply H; auto; right; auto|]. rewrite Forall_forall in F. auto. }
    rewrite Forall_forall in I2. split.
    + constructor; auto. apply Forall_forall. intros b Hb. apply (I2 b Hb). apply in_or_app; right; left; auto.
    + constructor; auto. apply Forall_forall. intros b Hb a Ha. apply (I2 b Hb). apply in_or_app; auto.
Qed.
Lemma last_In {A} (l : list A) d : l <> [] -> In (last l d) l.
Proof. induction l as [|a [|b l] IH]; [congruence|left; auto|]. right. apply IH. discriminate. Qed.
Lemma dedup_last seen l d : l <> [] -> StronglySorted Qle l -> (forall a b, In a seen -> In b l -> (a < b)%Q) ->
  (last (dedup_by Qeq_bool seen l) d == last l d)%Q.
Proof.
  intros NE S H. assert (NN : forall x, In x (dedup_by Qeq_bool seen l) -> In x l) by (intros; eapply dedup_by_In; eauto).
  destruct (dedup_sorted seen l S) as [SS _]; [intros; apply Qlt_le_weak; auto|].
  assert (LI : In (last l d) l) by (apply last_In; auto).
  destruct (dedup_by_complete Qeq_bool Qeq_bool_refl seen l (last l d) LI) as (b & [Hb|Hb] & E); apply Qeq_bool_iff in E.
  - assert (X := H _ _ Hb LI). rewrite E in X. exfalso; revert X; apply Qlt_irrefl.
  - assert (TOP : forall l, StronglySorted Qle l -> forall x, In x l -> (x <= last l d)%Q).
    { clear. induction 1 as [|a l S IH F]; intros x Hx; [contradiction|]. destruct l as [|c l].
      - destruct Hx as [<-|[]]. apply Qle_refl.
      - change (last (a :: c :: l) d) with (last (c :: l) d). destruct Hx as [<-|Hx]; [|apply IH; auto]. inversion F; subst.
        eapply Qle_trans; [eassumption|]. apply IH; left; auto. }
    apply Qle_antisym.
    + apply TOP; auto. apply NN. apply last_In. intros Z. rewrite Z in Hb. contradiction.
    + rewrite <- E. apply TOP; auto. clear -SS. induction SS; constructor; auto. eapply Forall_impl; [|eassumption]. cbv beta. intros; apply Qlt_le_weak; auto.
Qed.

(** ** rint *)
Lemma rint_near x : (Qabs (inject_Z (rint x) - x) <= 1 # 2)%Q.
Proof.
  unfold rint. assert (A := Qfloor_le x). assert (B := Qlt_floor x). rewrite inject_Z_plus in B. change (inject_Z 1) with 1%Q in B.
  apply Qabs_Qle_condition.
  destruct (Qcompare (x - inject_Z (Qfloor x)) (1 # 2)) eqn:E.
  - apply Qeq_alt in E. destruct (Z.even _); [|rewrite inject_Z_plus; change (inject_Z 1) with 1%Q]; split; lra.
  - apply Qlt_alt in E. split; lra.
  - apply Qgt_alt in E. rewrite inject_Z_plus. change (inject_Z 1) with 1%Q. split; lra.
Qed.
Lemma rint_comp x y : (x == y)%Q -> rint x = rint y.
Proof.
  intros H. unfold rint. rewrite (Qfloor_comp x y H). assert ((x - inject_Z (Qfloor y)) ?= (1 # 2) = ((y - inject_Z (Qfloor y)) ?= (1 # 2)))%Q as ->; [|reflexivity].
  rewrite H. reflexivity.
Qed.
Lemma rint_mono x y : (x <= y)%Q -> (rint x <= rint y)%Z.
Proof.
  intros H. assert (F : (Qfloor x <= Qfloor y)%Z) by (apply Qfloor_resp_le; auto). unfold rint.
  destruct (Z.eq_dec (Qfloor x) (Qfloor y)) as [E|E].
  - rewrite E. destruct (Qcompare (x - _) _) eqn:E1; destruct (Qcompare (y - _) _) eqn:E2;
      rewrite <- ?Qeq_alt, <- ?Qlt_alt, <- ?Qgt_alt in *; destruct (Z.even (Qfloor y)); try lia; exfalso; lra.
  - destruct (Qcompare (x - _) _); destruct (Qcompare (y - _) _); destruct (Z.even (Qfloor x)); destruct (Z.even (Qfloor y)); lia.
Qed.
Lemma rint_int z : rint (inject_Z z) = z.
Proof.
  unfold rint. rewrite Qfloor_Z. assert ((inject_Z z - inject_Z z) ?= (1 # 2) = Lt)%Q as ->; [|reflexivity]. rewrite <- Qlt_alt. lra.
Qed.
Lemma rint_opp x : rint (- x) = (- rint x)%Z.
Proof.
  unfold rint. assert (A := Qfloor_le x). assert (B := Qlt_floor x). rewrite inject_Z_plus in B. change (inject_Z 1) with 1%Q in B.
  assert (A' := Qfloor_le (- x)). assert (B' := Qlt_floor (- x)). rewrite inject_Z_plus in B'. change (inject_Z 1) with 1%Q in B'.
  set (f := Qfloor x) in *. set (g := Qfloor (- x)) in *.
  assert (S : (g = - f \/ g = - f - 1)%Z).
  { assert (inject_Z (f + g) <= 0)%Q by (rewrite inject_Z_plus; lra). assert (- 2 < inject_Z (f + g))%Q by (rewrite inject_Z_plus; lra).
    change 0%Q with (inject_Z 0) in H. change (-2)%Q with (inject_Z (-2)) in H0. rewrite <- Zle_Qle in H. rewrite <- Zlt_Qlt in H0. lia. }
  destruct S as [-> | ->].
  - rewrite inject_Z_opp in *. assert (x == inject_Z f)%Q by lra.
    assert ((- x - - inject_Z f) ?= (1 # 2) = Lt)%Q as -> by (rewrite <- Qlt_alt; lra). assert ((x - inject_Z f) ?= (1 # 2) = Lt)%Q as -> by (rewrite <- Qlt_alt; lra). reflexivity.
  - replace (- f - 1)%Z with (- (f + 1))%Z in * by lia. rewrite inject_Z_opp, inject_Z_plus in *. change (inject_Z 1) with 1%Q in *.
    assert (EV : Z.even (- (f + 1)) = negb (Z.even f)) by (rewrite Z.even_opp, Z.even_add; destruct (Z.even f); reflexivity).
    destruct (Qcompare (x - inject_Z f) (1 # 2)) eqn:E; rewrite <- ?Qeq_alt, <- ?Qlt_alt, <- ?Qgt_alt in E.
    + assert ((- x - - (inject_Z f + 1)) ?= (1 # 2) = Eq)%Q as -> by (rewrite <- Qeq_alt; lra). rewrite EV. destruct (Z.even f); cbn [negb]; lia.
    + assert ((- x - - (inject_Z f + 1)) ?= (1 # 2) = Gt)%Q as -> by (rewrite <- Qgt_alt; lra). lia.
    + assert ((- x - - (inject_Z f + 1)) ?= (1 # 2) = Lt)%Q as -> by (rewrite <- Qlt_alt; lra). lia.
Qed.

(** ** powers of ten *)
Lemma pow10_pos k : (0 < pow10z k)%Z. Proof. unfold pow10z. apply Z.pow_pos_nonneg; lia. Qed.
Lemma pow10_add j k : pow10z (j + k) = (pow10z j * pow10z k)%Z.
Proof. unfold pow10z. rewrite Nat2Z.inj_add, Z.pow_add_r by lia. reflexivity. Qed.
Lemma pow10_le j k : j <= k -> (pow10z j <= pow10z k)%Z.
Proof. intros H. unfold pow10z. apply Z.pow_le_mono_r; lia. Qed.
Lemma qdec_mul n d : (qdec n d * inject_Z (pow10z d) == inject_Z n)%Q.
Proof. assert (P := pow10_pos d). unfold qdec, Qeq, inject_Z, Qmult. cbn [Qnum Qden]. rewrite Pos.mul_1_r, Z2Pos.id by auto. lia. Qed.
Lemma inj_pow_pos d : (0 < inject_Z (pow10z d))%Q.
Proof. change 0%Q with (inject_Z 0). rewrite <- Zlt_Qlt. apply pow10_pos. Qed.
Lemma qdec_le_iff n d y : (qdec n d <= y)%Q <-> (inject_Z n <= y * inject_Z (pow10z d))%Q.
Proof. rewrite <- (qdec_mul n d). symmetry. apply Qmult_le_r, inj_pow_pos. Qed.
Lemma qdec_ge_iff n d y : (y <= qdec n d)%Q <-> (y * inject_Z (pow10z d) <= inject_Z n)%Q.
Proof. rewrite <- (qdec_mul n d). symmetry. apply Qmult_le_r, inj_pow_pos. Qed.

(** ** rounding *)
Lemma size_nat_lt p : (Z.pos p < 2 ^ Z.of_nat (Pos.size_nat p))%Z.
Proof.
  induction p as [p IH|p IH|]; cbn [Pos.size_nat]; try (vm_compute; reflexivity); rewrite Nat2Z.inj_succ, Z.pow_succ_r by lia; lia.
Qed.
Lemma size_pow10 p : (Z.pos p < pow10z (Pos.size_nat p))%Z.
Proof.
  eapply Z.lt_le_trans; [apply size_nat_lt|]. unfold pow10z. apply Z.pow_le_mono_l. lia.
Qed.
Lemma small_den x : ~ (x == 0)%Q -> (1 <= Qabs x * inject_Z (Z.pos (Qden x)))%Q.
Proof.
  destruct x as [n d]. unfold Qeq, Qle, Qabs, Qmult, inject_Z. cbn [Qnum Qden]. intros H. rewrite Pos.mul_1_r. nia.
Qed.
Lemma Qabs_pos_ne x : ~ (x == 0)%Q -> (0 < Qabs x)%Q.
Proof. destruct x as [n d]. unfold Qeq, Qlt, Qabs. cbn [Qnum Qden]. lia. Qed.
Lemma inj_pow_le j k : j <= k -> (inject_Z (pow10z j) <= inject_Z (pow10z k))%Q.
Proof. intros H. rewrite <- Zle_Qle. apply pow10_le; auto. Qed.
Lemma lead0_from_spec x : forall fuel k, (k = 0 \/ (Qabs x * inject_Z (pow10z k) < 1)%Q) -> 0 < fuel ->
  (1 <= Qabs x * inject_Z (pow10z (k + fuel)))%Q ->
  (1 <= Qabs x * inject_Z (pow10z (S (lead0_from fuel k x))))%Q /\
  (lead0_from fuel k x = 0 \/ (Qabs x * inject_Z (pow10z (lead0_from fuel k x)) < 1)%Q).
Proof.
  induction fuel as [|f IH]; intros k K F B; [lia|]. cbn [lead0_from]. destruct (Qle_bool 1 (Qabs x * inject_Z (pow10z (S k)))) eqn:E.
  - apply Qle_bool_iff in E. auto.
  - assert (NE : (Qabs x * inject_Z (pow10z (S k)) < 1)%Q).
    { destruct (Qlt_le_dec (Qabs x * inject_Z (pow10z (S k))) 1); auto. apply Qle_bool_iff in q. congruence. }
    destruct f as [|f].
    + exfalso. replace (k + 1) with (S k) in B by lia. lra.
    + apply IH; [right; auto|lia|]. replace (S k + S f) with (k + S (S f)) by lia. exact B.
Qed.
Lemma lead0_spec x : ~ (x == 0)%Q -> (1 <= Qabs x * inject_Z (pow10z (S (lead0 x))))%Q /\
  (lead0 x = 0 \/ (Qabs x * inject_Z (pow10z (lead0 x)) < 1)%Q).
Proof.
  intros H. apply lead0_from_spec; auto.
  - destruct (Qden x); cbn [Pos.size_nat]; lia.
  - eapply Qle_trans; [apply small_den; exact H|]. apply (proj2 (Qmult_le_l _ _ _ (Qabs_pos_ne x H))). cbn [Nat.add]. rewrite <- Zle_Qle. apply Z.lt_le_incl, size_pow10.
Qed.
Lemma lead0_opp x : lead0 (- x) = lead0 x.
Proof.
  assert (E : Qabs (- x) = Qabs x) by (destruct x as [n d]; unfold Qabs, Qopp; cbn [Qnum Qden]; rewrite Z.abs_opp; reflexivity).
  unfold lead0. change (Qden (- x)) with (Qden x). generalize (Pos.size_nat (Qden x)) 0. intros f; induction f as [|f IH]; intros k; cbn [lead0_from]; auto.
  rewrite E, IH. reflexivity.
Qed.
Lemma round_frac_nz p x : ~ (x == 0)%Q -> round_frac p x = (rint (x * inject_Z (pow10z (p + lead0 x))), p + lead0 x).
Proof. intros H. unfold round_frac. destruct (Qeq_bool x 0) eqn:E; [apply Qeq_bool_iff in E; contradiction|reflexivity]. Qed.
Lemma round_frac_0 p x : (x == 0)%Q -> round_frac p x = (0%Z, 0).
Proof. intros H. unfold round_frac. apply Qeq_bool_iff in H. rewrite H. reflexivity. Qed.
Lemma rval_opp p x : (rval (round_frac p (- x)) == - rval (round_frac p x))%Q.
Proof.
  destruct (Qeq_dec x 0) as [E|E].
  - rewrite !round_frac_0 by lra. reflexivity.
  - rewrite !round_frac_nz by (try lra; intros H; apply E; lra). unfold rval. cbn [fst snd]. rewrite lead0_opp.
    rewrite (rint_comp _ (- (x * inject_Z (pow10z (p + lead0 x))))) by ring. rewrite rint_opp. unfold qdec, Qeq, Qopp. cbn [Qnum Qden]. lia.
Qed.
Lemma round_pos p x : 1 <= p -> (0 < x)%Q ->
  (qdec 1 (S (lead0 x)) <= rval (round_frac p x))%Q /\ (lead0 x = 0 \/ (rval (round_frac p x) <= qdec 1 (lead0 x))%Q).
Proof.
  intros P X. assert (NZ : ~ (x == 0)%Q) by lra. destruct (lead0_spec x NZ) as [L1 L2]. rewrite (round_frac_nz p x NZ). unfold rval. cbn [fst snd].
  rewrite Qabs_pos in L1, L2 by lra. set (k := lead0 x) in *. split.
  - apply qdec_ge_iff. assert (E : (qdec 1 (S k) * inject_Z (pow10z (p + k)) == inject_Z (pow10z (p - 1)))%Q).
    { replace (p + k) with (S k + (p - 1)) by lia. rewrite pow10_add, inject_Z_mult, Qmult_assoc, qdec_mul. change (inject_Z 1) with 1%Q. ring. }
    rewrite E. rewrite <- Zle_Qle. rewrite <- (rint_int (pow10z (p - 1))). apply rint_mono.
    replace (p + k) with (S k + (p - 1)) by lia. rewrite pow10_add, inject_Z_mult, Qmult_assoc.
    rewrite <- (Qmult_1_l (inject_Z (pow10z (p - 1)))) at 1. apply Qmult_le_r; [apply inj_pow_pos|exact L1].
  - destruct L2 as [L2|L2]; [auto|right]. apply qdec_le_iff. assert (E : (qdec 1 k * inject_Z (pow10z (p + k)) == inject_Z (pow10z p))%Q).
    { rewrite Nat.add_comm, pow10_add, inject_Z_mult, Qmult_assoc, qdec_mul. change (inject_Z 1) with 1%Q. ring. }
    rewrite E. rewrite <- Zle_Qle. rewrite <- (rint_int (pow10z p)). apply rint_mono.
    rewrite Nat.add_comm, pow10_add, inject_Z_mult, Qmult_assoc. rewrite <- (Qmult_1_l (inject_Z (pow10z p))) at 2.
    apply Qmult_le_r; [apply inj_pow_pos|apply Qlt_le_weak; exact L2].
Qed.
Lemma qdec1_le j k : j <= k -> (qdec 1 k <= qdec 1 j)%Q.
Proof.
  intros H. apply qdec_le_iff. replace k with (j + (k - j)) by lia. rewrite pow10_add, inject_Z_mult, Qmult_assoc, qdec_mul. change (inject_Z 1) with 1%Q.
  rewrite Qmult_1_l. change 1%Q with (inject_Z (pow10z 0)). apply inj_pow_le. lia.
Qed.
Lemma qdec1_pos k : (0 < qdec 1 k)%Q.
Proof. unfold qdec, Qlt. cbn [Qnum Qden]. lia. Qed.
Lemma round_mono_pos p x y : 1 <= p -> (0 < x)%Q -> (x <= y)%Q -> (rval (round_frac p x) <= rval (round_frac p y))%Q.
Proof.
  intros P X XY. assert (Y : (0 < y)%Q) by lra. assert (NX : ~ (x == 0)%Q) by lra. assert (NY : ~ (y == 0)%Q) by lra.
  destruct (lead0_spec x NX) as [LX _]. destruct (lead0_spec y NY) as [_ LY]. rewrite Qabs_pos in LX, LY by lra.
  assert (K : lead0 y <= lead0 x).
  { destruct (Nat.le_gt_cases (lead0 y) (lead0 x)) as [|G]; auto. exfalso. destruct LY as [LY|LY]; [lia|].
    assert (A := inj_pow_le (S (lead0 x)) (lead0 y) ltac:(lia)).
    assert (B : (x * inject_Z (pow10z (S (lead0 x))) <= y * inject_Z (pow10z (lead0 y)))%Q).
    { eapply Qle_trans; [apply Qmult_le_l with (z := x); [auto|exact A]|]. apply Qmult_le_r; [apply inj_pow_pos|auto]. }
    lra. }
  destruct (Nat.eq_dec (lead0 y) (lead0 x)) as [E|E].
  - rewrite !round_frac_nz by auto. rewrite E. unfold rval. cbn [fst snd]. apply qdec_le_iff. rewrite qdec_mul. rewrite <- Zle_Qle. apply rint_mono.
    apply Qmult_le_r; [apply inj_pow_pos|auto].
  - destruct (round_pos p x P X) as [_ [U|U]]; [lia|]. destruct (round_pos p y P Y) as [V _]. eapply Qle_trans; [exact U|]. eapply Qle_trans; [|exact V].
    apply qdec1_le. lia.
Qed.
Lemma round_sign p x : 1 <= p -> ((0 < x)%Q -> (0 < rval (round_frac p x))%Q) /\ ((x < 0)%Q -> (rval (round_frac p x) < 0)%Q) /\ ((x == 0)%Q -> (rval (round_frac p x) == 0)%Q).
Proof.
  intros P. assert (POS : forall x, (0 < x)%Q -> (0 < rval (round_frac p x))%Q).
  { intros z Z. destruct (round_pos p z P Z) as [A _]. eapply Qlt_le_trans; [apply qdec1_pos|exact A]. }
  split; [auto|]. split.
  - intros H. assert (A := POS (- x)%Q ltac:(lra)). rewrite rval_opp in A. lra.
  - intros H. rewrite round_frac_0 by auto. reflexivity.
Qed.
Lemma round_mono p x y : 1 <= p -> (x <= y)%Q -> (rval (round_frac p x) <= rval (round_frac p y))%Q.
Proof.
  intros P H. destruct (round_sign p x P) as (X1 & X2 & X3). destruct (round_sign p y P) as (Y1 & Y2 & Y3).
  destruct (Q_dec x 0) as [[X|X]|X]; destruct (Q_dec y 0) as [[Y|Y]|Y]; try (exfalso; lra);
    try (specialize (X2 X)); try (specialize (X1 X)); try (specialize (X3 X)); try (specialize (Y2 Y)); try (specialize (Y1 Y)); try (specialize (Y3 Y)); try lra.
  - assert (A := round_mono_pos p (- y) (- x) P ltac:(lra) ltac:(lra)). rewrite !rval_opp in A. lra.
  - apply round_mono_pos; auto.
Qed.
Lemma round_near p x : (Qabs (rval (round_frac p x) - x) * inject_Z (pow10z p) <= 1 # 2)%Q.
Proof.
  destruct (Qeq_dec x 0) as [E|E].
  - rewrite round_frac_0 by auto. setoid_replace (rval (0%Z, 0%nat) - x)%Q with 0%Q by (rewrite E; reflexivity). change (Qabs 0) with 0%Q. lra.
  - rewrite round_frac_nz by auto. unfold rval. cbn [fst snd]. set (d := p + lead0 x). assert (N := rint_near (x * inject_Z (pow10z d))).
    assert (F : (inject_Z (rint (x * inject_Z (pow10z d))) - x * inject_Z (pow10z d) == (qdec (rint (x * inject_Z (pow10z d))) d - x) * inject_Z (pow10z d))%Q).
    { rewrite <- (qdec_mul (rint (x * inject_Z (pow10z d))) d) at 1. ring. }
    rewrite F, Qabs_Qmult, (Qabs_pos (inject_Z (pow10z d))) in N by (apply Qlt_le_weak, inj_pow_pos).
    eapply Qle_trans; [|exact N]. assert (A := inj_pow_le p d ltac:(unfold d; lia)). assert (B := Qabs_nonneg (qdec (rint (x * inject_Z (pow10z d))) d - x)).
    revert A B. generalize (Qabs (qdec (rint (x * inject_Z (pow10z d))) d - x)) (inject_Z (pow10z p)) (inject_Z (pow10z d)). intros a b c A B. nra.
Qed.
Lemma round_apart p x y : (1 < (y - x) * inject_Z (pow10z p))%Q -> (rval (round_frac p x) < rval (round_frac p y))%Q.
Proof.
  intros H. assert (A := round_near p x). assert (B := round_near p y). assert (PP := inj_pow_pos p).
  assert (AX := Qle_Qabs (rval (round_frac p x) - x)). assert (AY := Qle_Qabs (- (rval (round_frac p y) - y))). rewrite Qabs_opp in AY.
  revert A B PP AX AY H. generalize (rval (round_frac p x)) (rval (round_frac p y)) (Qabs (rval (round_frac p x) - x)) (Qabs (rval (round_frac p y) - y)) (inject_Z (pow10z p)).
  intros rx ry ax ay t A B PP AX AY H.
  assert ((rx - x) * t <= ax * t)%Q by (apply Qmult_le_r; auto). assert (- (ry - y) * t <= ay * t)%Q by (apply Qmult_le_r; auto).
  destruct (Qlt_le_dec rx ry) as [|G]; auto. exfalso. assert (0 <= (rx - ry) * t)%Q by nra. nra.
Qed.

(** ** the printed form denotes the rounded number *)
Lemma qdec_scale n d j : (qdec (n * pow10z j) (d + j) == qdec n d)%Q.
Proof.
  assert (P := pow10_pos j). assert (P' := pow10_pos d). unfold qdec, Qeq. cbn [Qnum Qden]. rewrite !Z2Pos.id by (apply pow10_pos). rewrite pow10_add. lia.
Qed.
Lemma strip0_val f n d : (rval (strip0 f n d) == qdec n d)%Q.
Proof.
  revert n d. induction f as [|f IH]; intros n d; [destruct d; reflexivity|]. destruct d as [|d]; cbn [strip0]; [reflexivity|].
  destruct (Z.eqb_spec (n mod 10) 0) as [E|E]; [|reflexivity]. rewrite IH. assert (n = n / 10 * pow10z 1)%Z.
  { change (pow10z 1) with 10%Z. rewrite (Z.div_mod n 10) at 1 by lia. lia. }
  rewrite H at 2. replace (S d) with (d + 1) by lia. symmetry. apply qdec_scale.
Qed.
Lemma trail0_val f n z : (fst (trail0 f n z) * pow10z (snd (trail0 f n z)) = n * pow10z z)%Z.
Proof.
  revert n z. induction f as [|f IH]; intros n z; cbn [trail0]; [reflexivity|].
  destruct (Z.eqb_spec (n mod 10) 0) as [E|E]; [|reflexivity]. rewrite IH. replace (S z) with (1 + z) by lia. rewrite pow10_add.
  change (pow10z 1) with 10%Z. rewrite (Z.div_mod n 10) at 2 by lia. nia.
Qed.
Lemma Qpower10 k : (Qpower (10#1) (Z.of_nat k) == inject_Z (pow10z k))%Q.
Proof. change (10#1)%Q with (inject_Z 10). rewrite <- Zpower_Qpower by lia. reflexivity. Qed.
Lemma float_bound_val r : exists q, bound_val (float_bound r) = FFin q /\ (q == rval r)%Q.
Proof.
  unfold float_bound. assert (S0 := strip0_val (snd r) (fst r) (snd r)). destruct (strip0 (snd r) (fst r) (snd r)) as [n d]. unfold rval in S0 at 1. cbn [fst snd] in S0.
  fold (rval r) in S0. destruct (Z.eqb_spec n 0) as [->|NZ].
  { eexists. split; [reflexivity|]. rewrite <- S0. unfold qdec, Qeq. cbn [Qnum Qden]. lia. }
  destruct (Nat.eqb_spec d 0) as [->|D]; cbn [andb].
  - assert (S1 : (inject_Z n == rval r)%Q) by (rewrite <- S0; reflexivity). destruct (pow10z 16 <=? Z.abs n)%Z.
    + assert (T := trail0_val (ndigits n) n 0). destruct (trail0 (ndigits n) n 0) as [m z]. cbn [fst snd] in T. eexists. split; [reflexivity|].
      rewrite <- Nat2Z.inj_add, Qpower10, pow10_add, inject_Z_mult, Qmult_assoc, qdec_mul, <- inject_Z_mult. rewrite T. change (pow10z 0) with 1%Z.
      rewrite Z.mul_1_r. exact S1.
    + eexists. split; [reflexivity|]. rewrite <- S1. unfold qdec, Qeq, inject_Z. cbn [Qnum Qden]. change (Z.pos (Z.to_pos (pow10z 1))) with 10%Z. lia.
  - destruct (_ <? _)%Z; [|eexists; split; [reflexivity|exact S0]]. eexists. split; [reflexivity|]. rewrite <- S0.
    rewrite Qpower_minus by (intros H; discriminate H). unfold Qdiv; rewrite !Qpower10, Qmult_assoc, qdec_mul.
    assert (P := inj_pow_pos d). apply (Qmult_inj_r _ _ (inject_Z (pow10z d))); [lra|]. rewrite qdec_mul. field. lra.
Qed.
Lemma minus_unit_val p r : (rval (minus_unit p r) == rval r - qdec 1 p)%Q.
Proof.
  destruct r as [n d]. unfold minus_unit, rval. cbn [fst snd]. set (e := Nat.max d p).
  assert (A := qdec_scale n d (e - d)). replace (d + (e - d)) with e in A by (unfold e; lia).
  assert (B := qdec_scale 1 p (e - p)). replace (p + (e - p)) with e in B by (unfold e; lia). rewrite Z.mul_1_l in B.
  rewrite <- A, <- B. unfold qdec, Qeq, Qminus, Qplus, Qopp. cbn [Qnum Qden]. rewrite Pos2Z.inj_mul. ring.
Qed.
Lemma increasing_bounds (l : list (Z * nat)) : StronglySorted Qlt (map rval l) -> increasing (map float_bound l).
Proof.
  induction l as [|a l IH]; intros S; [exact Logic.I|]. cbn [map] in *. inversion S as [|? ? S' F]; subst. cbn [increasing].
  destruct (float_bound_val a) as (qa & EA & QA). split; [exists qa; auto|]. split; [|apply IH; auto]. destruct l as [|b l]; [exact Logic.I|]. cbn [map].
  destruct (float_bound_val b) as (qb & EB & QB). exists qa, qb. split; auto. split; auto. rewrite QA, QB. cbn [map] in F. inversion F; auto.
Qed.

(** ** the precision search ends *)
Lemma all_differ_spec l : all_differ l = true <-> ForallOrdPairs (fun a b => ~ (a == b)%Q) l.
Proof.
  induction l as [|x t IH]; cbn [all_differ]; [split; [constructor|auto]|]. rewrite Bool.andb_true_iff, Bool.negb_true_iff, IH. split.
  - intros [H1 H2]. constructor; auto. apply Forall_forall. intros y Hy E. apply Bool.not_true_iff_false in H1. apply H1. apply existsb_exists. exists y.
    split; auto. apply Qeq_bool_iff; auto.
  - intros H. inversion H; subst. split; auto. apply Bool.not_true_iff_false. rewrite existsb_exists. intros (y & Hy & E). apply Qeq_bool_iff in E.
    rewrite Forall_forall in H2. eapply H2; eauto.
Qed.
Lemma gap x y : (x < y)%Q -> (1 < (y - x) * inject_Z (pow10z (Pos.size_nat (Qden y * Qden x))))%Q.
Proof.
  intros H. assert (S := size_pow10 (Qden y * Qden x)). destruct x as [a b], y as [c d]. unfold Qlt, Qmult, Qminus, Qplus, Qopp, inject_Z in *. cbn [Qnum Qden] in *.
  rewrite !Pos2Z.inj_mul in *. nia.
Qed.
Lemma enough_gap edges a b : In (a, b) (edge_pairs edges) -> Pos.size_nat (Qden b * Qden a) <= enough edges - 1.
Proof.
  unfold enough. induction (edge_pairs edges) as [|[u v] l IH]; intros H; [contradiction|]. cbn [fold_right fst snd].
  assert (P : forall l : list (Q * Q), 1 <= fold_right (fun b n => Pos.size_nat (Qden (snd b) * Qden (fst b)) + n) 1 l).
  { clear. intros l; induction l; cbn [fold_right]; lia. }
  specialize (P l). destruct H as [E|H]; [injection E as -> ->; lia|]. apply IH in H. lia.
Qed.
Lemma steps_sorted (l : list Q) : (forall a b, In (a, b) (edge_pairs l) -> (a < b)%Q) -> StronglySorted Qlt l.
Proof.
  intros H. apply Sorted_StronglySorted; [intros x y z; apply Qlt_trans|]. induction l as [|a [|b t] IH]; [constructor|repeat constructor|].
  constructor.
  - apply IH. intros u v I. apply H. rewrite edge_pairs_cons. right; auto.
  - constructor. apply H. left; auto.
Qed.
Lemma sorted_steps (l : list Q) : StronglySorted Qlt l -> forall a b, In (a, b) (edge_pairs l) -> (a < b)%Q.
Proof.
  induction 1 as [|a l S IH F]; intros u v I; [contradiction|]. destruct l as [|b l]; [contradiction|]. rewrite edge_pairs_cons in I.
  destruct I as [E|I]; [injection E as <- <-; inversion F; auto|auto].
Qed.
Lemma infer_some fuel p edges : (exists j, j < fuel /\ all_differ (map (fun x => rval (round_frac (p + j) x)) edges) = true) ->
  exists p', infer_from fuel p edges = Some p' /\ p <= p' /\ all_differ (map (fun x => rval (round_frac p' x)) edges) = true.
Proof.
  revert p; induction fuel as [|f IH]; intros p (j & J & A); [lia|]. cbn [infer_from].
  destruct (all_differ (map (fun x => rval (round_frac p x)) edges)) eqn:E; [eauto|].
  destruct j as [|j]; [rewrite Nat.add_0_r in A; congruence|]. destruct (IH (S p)) as (p' & E' & L & A').
  { exists j. split; [lia|]. replace (S p + j) with (p + S j) by lia. exact A. }
  exists p'. split; auto. split; [lia|auto].
Qed.
Lemma lt_differ l : StronglySorted Qlt l -> all_differ l = true.
Proof.
  intros S. apply all_differ_spec. induction S as [|a l S IH F]; constructor; auto. eapply Forall_impl; [|exact F]. cbv beta. intros b H E. rewrite E in H.
  apply (Qlt_irrefl _ H).
Qed.
Lemma infer_precision_ok base edges : 1 <= base -> StronglySorted Qlt edges ->
  base <= infer_precision base edges /\ StronglySorted Qlt (map (fun x => rval (round_frac (infer_precision base edges) x)) edges).
Proof.
  intros B S. unfold infer_precision. destruct (infer_some (enough edges) base edges) as (p & E & L & A).
  - assert (N : 1 <= enough edges) by (unfold enough; induction (edge_pairs edges); cbn [fold_right]; lia). exists (enough edges - 1). split; [lia|].
    apply lt_differ. apply steps_sorted. intros a b I. rewrite edge_pairs_map in I. apply in_map_iff in I. destruct I as ([u v] & E & I). injection E as <- <-. cbn [fst snd].
    apply round_apart. assert (G := gap u v (sorted_steps _ S _ _ I)). eapply Qlt_le_trans; [exact G|].
    apply Qmult_le_l; [assert (X := sorted_steps _ S _ _ I); lra|]. apply inj_pow_le. assert (X := enough_gap _ _ _ I). lia.
  - rewrite E. split; auto. apply all_differ_spec in A. clear -B L S A. assert (P : 1 <= p) by lia. revert A. induction S as [|a l S IH F]; intros A; cbn [map] in *; constructor.
    + inversion A; subst. auto.
    + inversion A as [|? ? A1 A2]; subst. rewrite Forall_forall in *. intros y Hy. assert (NE := A1 y Hy). apply in_map_iff in Hy. destruct Hy as (z & <- & Z).
      assert (M := round_mono p a z P (Qlt_le_weak _ _ (F z Z))). apply Qle_lteq in M. destruct M; auto. contradiction.
Qed.
Lemma infer_ge base edges : base <= infer_precision base edges.
Proof.
  unfold infer_precision. destruct (infer_from _ base edges) eqn:E; auto. revert base E. generalize (enough edges). intros f. induction f as [|f IH]; intros b E; [discriminate|].
  cbn [infer_from] in E. destruct (all_differ _); [injection E as <-; auto|]. apply IH in E. lia.
Qed.

(** ** the shown edges *)
Lemma show_strict lowest edges : StronglySorted Qlt edges -> increasing (map e_shown (show_edges lowest edges)).
Proof.
  intros S. destruct edges as [|x t]; [exact Logic.I|]. unfold show_edges. destruct (infer_precision_ok 2 (x :: t) ltac:(lia) S) as [P SS].
  set (p := infer_precision 2 (x :: t)) in *. cbn [map e_shown]. rewrite map_map. cbn [e_shown].
  assert (E : forall r, float_bound r :: map (fun y => float_bound (round_frac p y)) t = map float_bound (r :: map (round_frac p) t)).
  { intros r. cbn [map]. rewrite map_map. reflexivity. }
  rewrite E. apply increasing_bounds. cbn [map] in *. rewrite map_map. inversion SS as [|? ? SS' F]; subst. constructor; auto.
  destruct lowest; auto. eapply Forall_impl; [|exact F]. cbv beta. intros a H. rewrite minus_unit_val. assert (X := qdec1_pos p). lra.
Qed.
Lemma show_pair a b : (a <= b)%Q -> increasing (map e_shown (show_edges true [a; b])).
Proof.
  intros H. unfold show_edges. assert (P := infer_ge 2 [a; b]). set (p := infer_precision 2 [a; b]) in *. cbn [map e_shown].
  change [float_bound (minus_unit p (round_frac p a)); float_bound (round_frac p b)] with (map float_bound [minus_unit p (round_frac p a); round_frac p b]).
  apply increasing_bounds. cbn [map]. constructor; [repeat constructor|]. constructor; [|constructor]. rewrite minus_unit_val. assert (X := qdec1_pos p).
  assert (M := round_mono p a b ltac:(lia) H). lra.
Qed.
Lemma show_at lowest edges : map e_at (show_edges lowest edges) = edges.
Proof. destruct edges as [|x t]; [reflexivity|]. unfold show_edges. cbn [map e_at]. rewrite map_map. cbn [e_at]. rewrite map_id. reflexivity. Qed.

Lemma strict_weak l : StronglySorted Qlt l -> StronglySorted Qle l.
Proof. induction 1; constructor; auto. eapply Forall_impl; [|eassumption]. cbv beta. intros; apply Qlt_le_weak; auto. Qed.
Lemma drop_ok lo mid hi : StronglySorted Qle (lo :: mid ++ [hi]) -> mid = [] \/ (lo < hi)%Q ->
  exists mid' hi', drop_repeated (lo :: mid ++ [hi]) = lo :: mid' ++ [hi'] /\ (hi' == hi)%Q /\
    ((mid' = [] /\ (lo <= hi')%Q) \/ StronglySorted Qlt (lo :: mid' ++ [hi'])) /\ ((lo < hi)%Q -> StronglySorted Qlt (lo :: mid' ++ [hi'])).
Proof.
  intros S H. unfold drop_repeated. destruct (Nat.eqb_spec (length (lo :: mid ++ [hi])) 2) as [E|E].
  - cbn [length] in E. rewrite app_length in E. cbn [length] in E. destruct mid; [|cbn in E; lia]. exists [], hi. cbn [app] in *. split; auto. split; [reflexivity|].
    inversion S; subst. inversion H3; subst. split; [left; auto|]. intros L. constructor; [repeat constructor|]. constructor; auto.
  - destruct H as [->|H]; [cbn in E; lia|].
    destruct (dedup_sorted [] (lo :: mid ++ [hi]) S) as [SS _]; [contradiction|].
    assert (L := dedup_last [] (lo :: mid ++ [hi]) 0%Q ltac:(discriminate) S ltac:(contradiction)). change (lo :: mid ++ [hi]) with ((lo :: mid) ++ [hi]) in L at 2.
    rewrite last_last in L. cbn [dedup_by existsb app] in *.
    set (t := dedup_by Qeq_bool [lo] (mid ++ [hi])) in *. destruct (ends_case (lo :: t)) as [X|[(a & X)|(a & m & b & X)]]; [discriminate| |].
    + exfalso. rewrite X in L. injection X as X _. cbn [last] in L. subst a. rewrite L in H. apply (Qlt_irrefl _ H).
    + injection X as <- X. rewrite X in *. change (lo :: m ++ [b]) with ((lo :: m) ++ [b]) in L. rewrite last_last in L. exists m, b. auto.
Qed.

Lemma dedup_pairs {A} (eqb : A -> A -> bool) seen l : ForallOrdPairs (fun a b => eqb a b = false) (dedup_by eqb seen l) /\
  Forall (fun b => forall a, In a seen -> eqb a b = false) (dedup_by eqb seen l).
Proof.
  revert seen. induction l as [|x l IH]; intros seen; cbn [dedup_by]; [split; constructor|]. destruct (existsb (fun b => eqb b x) seen) eqn:E; [apply IH|].
  destruct (IH (seen ++ [x])) as [I1 I2]. rewrite Forall_forall in I2. split; constructor; auto.
  - apply Forall_forall. intros b Hb. apply (I2 b Hb). apply in_or_app; right; left; auto.
  - intros a Ha. apply Bool.not_true_iff_false. intros X. apply Bool.not_true_iff_false in E. apply E. apply existsb_exists. eauto.
  - apply Forall_forall. intros b Hb a Ha. apply (I2 b Hb). apply in_or_app; auto.
Qed.
Lemma nums_In vs v x : In v vs -> num_of v = Some x -> In (Qred x) (nums vs).
Proof. intros I E. unfold nums. apply in_flat_map. exists v. rewrite E. split; [auto|left; auto]. Qed.
Lemma two_numbers vs : is_numeric_col vs = true -> 2 + (if has_missing vs then 1 else 0) <= length (unique vs) ->
  exists a b, In a (nums vs) /\ In b (nums vs) /\ (a < b)%Q.
Proof.
  intros N L. assert (K : forall v, In v vs -> num_of v <> None \/ v = PNaN).
  { intros v I. unfold is_numeric_col in N. rewrite forallb_forall in N. specialize (N v I). destruct v; try discriminate; auto; left; cbn; discriminate. }
  assert (M : forall v, In v vs -> has_missing vs = false -> num_of v <> None).
  { intros v I H E. unfold has_missing in H. apply Bool.not_true_iff_false in H. apply H. apply existsb_exists. exists v. rewrite E. auto. }
  destruct (dedup_pairs uniq_eq [] vs) as [P _]. fold (unique vs) in P. assert (U : forall v, In v (unique vs) -> In v vs) by (intros; apply unique_In; auto).
  assert (G : forall v w, In v vs -> In w vs -> num_of v <> None -> num_of w <> None -> uniq_eq v w = false -> exists a b, In a (nums vs) /\ In b (nums vs) /\ (a < b)%Q).
  { intros v w V W NV NW E. destruct (num_of v) as [x|] eqn:EV; [|congruence]. destruct (num_of w) as [y|] eqn:EW; [|congruence].
    assert (D : ~ (x == y)%Q).
    { intros X. unfold uniq_eq in E. apply Bool.orb_false_iff in E. destruct E as [E _]. unfold py_eq in E. rewrite EV, EW in E. apply Qeq_bool_iff in X. rewrite X in E.
      destruct v; try discriminate; destruct w; discriminate. }
    apply nums_In with (x := x) in V; auto. apply nums_In with (x := y) in W; auto. destruct (Q_dec x y) as [[C|C]|C]; [| |contradiction].
    - exists (Qred x), (Qred y). split; [auto|split; [auto|]]; rewrite !Qred_correct; auto.
    - exists (Qred y), (Qred x). split; [auto|split; [auto|]]; rewrite !Qred_correct; auto. }
  destruct (unique vs) as [|a [|b t]]; [cbn in L; lia|cbn in L; lia|]. inversion P as [|? ? F P']; subst. inversion F as [|? ? AB F']; subst.
  assert (IA : In a vs) by (apply U; left; auto). assert (IB : In b vs) by (apply U; right; left; auto).
  destruct (has_missing vs) eqn:HM; [|apply (G a b); auto].
  destruct t as [|c t]; [cbn in L; lia|]. assert (IC : In c vs) by (apply U; right; right; left; auto). inversion F' as [|? ? AC F'']; subst. inversion P' as [|? ? FB P'']; subst.
  inversion FB as [|? ? BC FB']; subst.
  destruct (K a IA) as [A|A]; destruct (K b IB) as [B|B]; destruct (K c IC) as [C|C]; try (apply (G a b); auto; fail); try (apply (G a c); auto; fail); try (apply (G b c); auto; fail);
    subst; discriminate.
Qed.

Lemma map_ends {A} (g : edge -> A) (edges : list edge) lo mid hi : map g edges = lo :: mid ++ [hi] ->
  exists lo' mid' hi', edges = lo' :: mid' ++ [hi'] /\ g lo' = lo /\ g hi' = hi.
Proof.
  intros H. destruct (ends_case edges) as [->|[(a & ->)|(a & m & b & ->)]]; try discriminate.
  - cbn in H. injection H as _ H. destruct mid; discriminate.
  - exists a, m, b. split; auto. cbn [map] in H. injection H as H1 H2. split; auto. rewrite map_app in H2. apply app_inj_tail in H2. tauto.
Qed.
Lemma sorted_range s x : StronglySorted Qle s -> In x s -> (at_q s 0 <= x /\ x <= at_q s (length s - 1))%Q.
Proof.
  intros S I. apply (In_nth _ _ (last s 0%Q)) in I. destruct I as (k & K & <-). fold (at_q s k). split; apply at_q_mono; auto; lia.
Qed.

Theorem pandas_cut_ok : cuts_ok pandas_cut.
Proof.
  intros n vs N NC U. set (s := sort_q (nums vs)). set (q := Z.to_nat n). assert (Q0 : 0 < q) by (unfold q; lia).
  assert (S : StronglySorted Qle s) by apply sort_q_sorted.
  assert (IN : forall v x, In v vs -> num_of v = Some x -> (at_q s 0 <= x /\ x <= at_q s (length s - 1))%Q).
  { intros v x I E. destruct (sorted_range s (Qred x) S) as [A B]; [apply sort_q_In, nums_In with v; auto|]. rewrite Qred_correct in A, B. auto. }
  assert (NE : 2 + (if has_missing vs then 1 else 0) <= length (unique vs) -> (at_q s 0 < at_q s (length s - 1))%Q).
  { intros H. destruct (two_numbers vs NC H) as (a & b & A & B & C). apply sort_q_In in A, B. fold s in A, B.
    destruct (sorted_range s a S A). destruct (sorted_range s b S B). lra. }
  (* quantile edges *)
  assert (QE : exists lo mid hi, quantiles s q = lo :: mid ++ [hi] /\ (lo == at_q s 0)%Q /\ (hi == at_q s (length s - 1))%Q /\ StronglySorted Qle (lo :: mid ++ [hi]) /\ (mid = [] -> q = 1)).
  { assert (SQ : StronglySorted Qle (quantiles s q)) by (apply sorted_map_seq; intros; apply quantile_mono; auto).
    exists (quantile s q 0), (map (quantile s q) (seq 1 (q - 1))), (quantile s q q).
    assert (E : quantiles s q = quantile s q 0 :: map (quantile s q) (seq 1 (q - 1)) ++ [quantile s q q]).
    { unfold quantiles. change (seq 0 (Datatypes.S q)) with (0 :: seq 1 q). cbn [map]. f_equal. replace q with (Datatypes.S (q - 1)) at 2 by lia. rewrite seq_S, map_app. cbn [map].
      replace (1 + (q - 1)) with q by lia. reflexivity. }
    rewrite <- E. split; auto. split; [apply quantile_first; auto|]. split; [apply quantile_last; auto|]. split; auto.
    intros H. destruct (q - 1) as [|k] eqn:K; [lia|]. discriminate H. }
  destruct QE as (lo & mid & hi & QE & QL & QH & QS & Q1).
  destruct (drop_ok lo mid hi QS) as (m & h & D & DH & DS & DL).
  { destruct mid as [|x t]; auto. right. rewrite QL, QH. apply NE. destruct (Nat.eq_dec q 1) as [E|E].
    - exfalso. apply (f_equal (@length Q)) in QE. unfold quantiles in QE. rewrite map_length, seq_length in QE. cbn [length] in QE. rewrite app_length in QE. cbn [length] in QE. lia.
    - destruct (has_missing vs); unfold q in E; lia. }
  unfold pandas_cut. fold s. fold q. rewrite QE, D. destruct (_ <? 2) eqn:FB.
  - (* equal width *)
    apply Nat.ltb_lt in FB.
    assert (PB : has_missing vs = false).
    { destruct (has_missing vs) eqn:HM; auto. exfalso. destruct (uniq_nan_one vs n N NC) as (v & x & V & X); [apply Z.ltb_lt; auto|].
      assert (T : pandas_bins (show_edges true (lo :: m ++ [h])) vs <> []).
      { eapply training_kept; eauto. destruct (map_ends e_at (show_edges true (lo :: m ++ [h])) lo m h) as (l' & m' & h' & E & E1 & E2); [apply show_at|].
        exists l', m', h'. split; auto. rewrite E1, E2, QL, DH, QH. eapply IN; eauto. }
      destruct (pandas_bins _ vs); [congruence|]. cbn [length] in FB. lia. }
    assert (LT : (at_q s 0 < at_q s (length s - 1))%Q) by (apply NE; rewrite PB; lia).
    assert (SN : s <> []) by (intros ->; cbn in LT; apply (Qlt_irrefl _ LT)).
    assert (HD : hd 0%Q s = at_q s 0) by (destruct s; [congruence|reflexivity]).
    assert (LA : last s 0%Q = at_q s (length s - 1)).
    { unfold at_q. destruct (ends_case s) as [X|[(a & X)|(a & k & b & X)]]; [congruence|rewrite X; reflexivity|]. rewrite X. cbn [length]. rewrite app_length. cbn [length].
      replace (Datatypes.S (length k + 1) - 1) with (length (a :: k)) by (cbn; lia). change (a :: k ++ [b]) with ((a :: k) ++ [b]). rewrite nth_middle, last_last. reflexivity. }
    set (mn := at_q s 0) in *. set (mx := at_q s (length s - 1)) in *.
    set (w := fun i : nat => Qred (mn + (mx - mn) * (Z.of_nat i # Pos.of_nat q))%Q).
    assert (EQ : Z.pos (Pos.of_nat q) = Z.of_nat q) by (rewrite <- positive_nat_Z, Nat2Pos.id by lia; reflexivity).
    assert (EW : equal_width s q = Qred (mn - (mx - mn) * (1 # 1000)) :: map w (seq 1 (q - 1)) ++ [w q]).
    { unfold equal_width. rewrite HD, LA. f_equal. change (map w (seq 1 q) = map w (seq 1 (q - 1)) ++ [w q]). replace q with (Datatypes.S (q - 1)) at 1 by lia. rewrite seq_S, map_app. cbn [map].
      replace (1 + (q - 1)) with q by lia. reflexivity. }
    assert (WM : forall i j, i <= j -> (w i <= w j)%Q).
    { intros i j H. unfold w. rewrite !Qred_correct. assert (F : ((Z.of_nat i # Pos.of_nat q) <= (Z.of_nat j # Pos.of_nat q))%Q) by (unfold Qle; cbn [Qnum Qden]; nia). nra. }
    assert (WP : forall i, (mn <= w i)%Q).
    { intros i. unfold w. rewrite Qred_correct. assert (F : (0 <= (Z.of_nat i # Pos.of_nat q))%Q) by (unfold Qle; cbn [Qnum Qden]; lia). nra. }
    assert (WQ : (w q == mx)%Q).
    { unfold w. rewrite Qred_correct. setoid_replace (Z.of_nat q # Pos.of_nat q)%Q with 1%Q by (unfold Qeq; cbn [Qnum Qden]; lia). ring. }
    assert (SW : StronglySorted Qle (Qred (mn - (mx - mn) * (1 # 1000)) :: map w (seq 1 (q - 1)) ++ [w q])).
    { constructor.
      - replace (map w (seq 1 (q - 1)) ++ [w q]) with (map w (seq 1 q)); [apply sorted_map_seq; auto|]. replace q with (Datatypes.S (q - 1)) at 1 by lia. rewrite seq_S, map_app. cbn [map].
        replace (1 + (q - 1)) with q by lia. reflexivity.
      - apply Forall_forall. intros y Hy. assert (M : (mn <= y)%Q).
        { apply in_app_or in Hy. destruct Hy as [Hy|[<-|[]]]; [apply in_map_iff in Hy; destruct Hy as (i & <- & _)|]; apply WP. }
        rewrite Qred_correct. lra. }
    assert (LO : (Qred (mn - (mx - mn) * (1 # 1000)) < mn)%Q) by (rewrite Qred_correct; lra).
    assert (LH : (Qred (mn - (mx - mn) * (1 # 1000)) < w q)%Q) by (rewrite WQ; lra).
    destruct (drop_ok _ _ _ SW (or_intror LH)) as (m2 & h2 & D2 & DH2 & _ & DL2). specialize (DL2 LH). rewrite EW, D2. split; [apply show_strict; auto|].
    destruct (map_ends e_at (show_edges false (Qred (mn - (mx - mn) * (1 # 1000)) :: m2 ++ [h2])) _ m2 h2 (show_at _ _)) as (l' & m' & h' & E & E1 & E2).
    rewrite E. split; [cbn [length]; rewrite app_length; cbn [length]; lia|]. intros v x I X. exists l', m', h'. split; auto. rewrite E1, E2, DH2, WQ.
    destruct (IN v x I X). split; [|auto]. apply Qlt_le_weak. lra.
  - (* quantiles *)
    split.
    + destruct DS as [[-> DS]|DS]; [apply show_pair; auto|apply show_strict; auto].
    + destruct (map_ends e_at (show_edges true (lo :: m ++ [h])) lo m h (show_at _ _)) as (l' & m' & h' & E & E1 & E2).
      rewrite E. split; [cbn [length]; rewrite app_length; cbn [length]; lia|]. intros v x I X. exists l', m', h'. split; auto. rewrite E1, E2, QL, DH, QH. eapply IN; eauto.
Qed.
