(** * RealFacts.v : the exact rational encodings of the model denote the real quantities *)
From Verif Require Export Engine RealSpec.
From Coq Require Import Qreals Reals Lra Qpower.
Open Scope R_scope.

(** the gain encoded by q is log2 q; the number of bits encoded by q is log2 q / 2 *)
Definition gain_of (q : Q) : R := log2 (Q2R q).
Definition bits_of (q : Q) : R := log2 (Q2R q) / 2.

Lemma ln2_pos : 0 < ln 2.
Proof. rewrite <- ln_1. apply ln_increasing; lra. Qed.
Lemma log2_lt a b : 0 < a -> 0 < b -> (log2 a < log2 b <-> a < b).
Proof.
  intros A B. unfold log2. pose proof ln2_pos. split.
  - intros L. apply ln_lt_inv; auto. apply Rmult_lt_reg_r with (/ ln 2); [apply Rinv_0_lt_compat; auto|exact L].
  - intros L. apply Rmult_lt_compat_r; [apply Rinv_0_lt_compat; auto|]. apply ln_increasing; auto.
Qed.
Lemma log2_le a b : 0 < a -> 0 < b -> (log2 a <= log2 b <-> a <= b).
Proof.
  intros A B. pose proof (log2_lt b a B A). split; intros L; apply Rnot_lt_le; intros C; [apply H in C|apply H in C]; lra.
Qed.
Lemma log2_mult a b : 0 < a -> 0 < b -> log2 (a * b) = log2 a + log2 b.
Proof. intros. unfold log2. rewrite ln_mult by auto. field. pose proof ln2_pos; lra. Qed.
Lemma log2_pow a n : 0 < a -> log2 (a ^ n) = INR n * log2 a.
Proof. intros. unfold log2. rewrite ln_pow by auto. field. pose proof ln2_pos; lra. Qed.
Lemma log2_div a b : 0 < a -> 0 < b -> log2 (a / b) = log2 a - log2 b.
Proof.
  intros. unfold log2, Rdiv at 2. rewrite ln_mult, ln_Rinv by (auto; apply Rinv_0_lt_compat; auto). field. pose proof ln2_pos; lra.
Qed.
Lemma log2_1 : log2 1 = 0.
Proof. unfold log2. rewrite ln_1. field. pose proof ln2_pos; lra. Qed.
Lemma log2_4 : log2 4 = 2.
Proof. replace 4 with (2 ^ 2) by ring. rewrite log2_pow by lra. unfold log2. cbn [INR]. field. pose proof ln2_pos; lra. Qed.

Lemma Q2R_pos q : (0 < q)%Q -> 0 < Q2R q.
Proof. intros H. apply Qlt_Rlt in H. rewrite RMicromega.Q2R_0 in H. exact H. Qed.
Lemma Q2R_qn n : Q2R (qn n) = INR n.
Proof. unfold qn, Q2R, inject_Z. cbn [Qnum Qden]. rewrite <- INR_IZR_INZ. field. Qed.
Lemma Q2R_pow q n : ~ (q == 0)%Q -> Q2R (Qpower q (Z.of_nat n)) = Q2R q ^ n.
Proof.
  intros H. induction n as [|n IH].
  - cbn. unfold Q2R. cbn. field.
  - rewrite Nat2Z.inj_succ. unfold Z.succ. rewrite (Qeq_eqR _ _ (Qpower_plus q (Z.of_nat n) 1 H)).
    rewrite Q2R_mult, IH. cbn [Qpower Qpower_positive pow]. rewrite Rmult_comm. reflexivity.
Qed.
Lemma Q2R_laplace p n : Q2R (laplace p n) = (INR p + 1) / (INR p + INR n + 1).
Proof.
  unfold laplace, Q2R. cbn [Qnum Qden]. rewrite <- INR_IZR_INZ, <- positive_nat_Z, <- INR_IZR_INZ, Nat2Pos.id by lia.
  rewrite !plus_INR. cbn [INR]. unfold Rdiv. reflexivity.
Qed.

Theorem gain2_real p0 n0 p1 n1 : gain_of (gain2 p0 n0 p1 n1) = foil_gain p0 n0 p1 n1.
Proof.
  pose proof (laplace_pos p0 n0) as A. pose proof (laplace_pos p1 n1) as B.
  assert (D : (0 < laplace p1 n1 / laplace p0 n0)%Q).
  { apply Qlt_shift_div_l; [exact A|]. rewrite Qmult_0_l. exact B. }
  unfold gain_of, gain2, foil_gain. rewrite (Qeq_eqR _ _ (Qred_correct _)).
  rewrite Q2R_pow by (intros C; rewrite C in D; apply (Qlt_irrefl 0 D)).
  rewrite log2_pow by (apply Q2R_pos; exact D).
  rewrite Q2R_div by (intros C; rewrite C in A; apply (Qlt_irrefl 0 A)).
  rewrite log2_div by (apply Q2R_pos; auto). rewrite !Q2R_laplace. reflexivity.
Qed.
Lemma gain_lt q q' : (0 < q)%Q -> (0 < q')%Q -> ((q < q')%Q <-> gain_of q < gain_of q').
Proof.
  intros A B. unfold gain_of. rewrite log2_lt by (apply Q2R_pos; auto). split; [apply Qlt_Rlt|apply Rlt_Qlt].
Qed.
Lemma gain_le q q' : (0 < q)%Q -> (0 < q')%Q -> ((q <= q')%Q <-> gain_of q <= gain_of q').
Proof.
  intros A B. unfold gain_of. rewrite log2_le by (apply Q2R_pos; auto). split; [apply Qle_Rle|apply Rle_Qle].
Qed.
Lemma gain_of_1 : gain_of 1 = 0.
Proof. unfold gain_of. rewrite RMicromega.Q2R_1. apply log2_1. Qed.

Lemma INR_pos n : (0 < n)%nat -> 0 < INR n.
Proof. apply lt_0_INR. Qed.

Theorem theory_bits_real k n : (Nat.max k 1 < n)%nat ->
  exists q, theory_bits k n = Ok q /\ (0 < q)%Q /\ bits_of q = rule_bits (Nat.max k 1) n.
Proof.
  set (K := Nat.max k 1). intros H. assert (K1 : (1 <= K)%nat) by (unfold K; lia).
  unfold theory_bits. fold K.
  destruct (n =? 0)%nat eqn:Z1; [apply Nat.eqb_eq in Z1; lia|].
  destruct (K =? n)%nat eqn:Z2; [apply Nat.eqb_eq in Z2; lia|].
  destruct (n <? K)%nat eqn:Z3; [apply Nat.ltb_lt in Z3; lia|].
  eexists. split; [reflexivity|].
  assert (QK : (0 < qn K)%Q) by (apply qn_pos; lia). assert (QN : (0 < qn n)%Q) by (apply qn_pos; lia).
  assert (QM : (0 < qn (n - K))%Q) by (apply qn_pos; lia).
  assert (DK : (0 < qn n / qn K)%Q) by (apply Qlt_shift_div_l; auto; rewrite Qmult_0_l; auto).
  assert (DM : (0 < qn n / qn (n - K))%Q) by (apply Qlt_shift_div_l; auto; rewrite Qmult_0_l; auto).
  set (q := (qn K * (qn n / qn K) ^ Z.of_nat K * (qn n / qn (n - K)) ^ Z.of_nat (n - K))%Q).
  assert (NZ : forall x, (0 < x)%Q -> ~ (x == 0)%Q) by (intros x X C; rewrite C in X; apply (Qlt_irrefl 0 X)).
  assert (Qq : (0 < q)%Q). { unfold q. repeat apply Qmult_lt_0_compat; auto; apply Qpower_posn; auto. }
  assert (RQ : log2 (Q2R q) / 2 = 1 / 2 * (log2 (INR K) + (INR K * log2 (1 / (INR K / INR n)) + (INR n - INR K) * log2 (1 / (1 - INR K / INR n))))).
  { pose proof (INR_pos K ltac:(lia)) as PK. pose proof (INR_pos n ltac:(lia)) as PN. pose proof (INR_pos (n - K) ltac:(lia)) as PM.
    rewrite minus_INR in PM by lia.
    unfold q. rewrite !Q2R_mult, !Q2R_pow, !Q2R_div, !Q2R_qn by auto. rewrite minus_INR by lia.
    assert (0 < INR n / INR K) by (apply Rdiv_lt_0_compat; auto).
    assert (0 < INR n / (INR n - INR K)) by (apply Rdiv_lt_0_compat; auto).
    rewrite !log2_mult by (auto; try (apply Rmult_lt_0_compat; auto); apply pow_lt; auto).
    rewrite !log2_pow by auto. rewrite minus_INR by lia.
    replace (1 / (INR K / INR n)) with (INR n / INR K) by (field; lra).
    replace (1 / (1 - INR K / INR n)) with (INR n / (INR n - INR K)) by (field; lra). field. }
  assert (B4 : bits_of 4 = 1). { unfold bits_of. replace (Q2R 4) with 4 by (unfold Q2R; cbn; field). rewrite log2_4. field. }
  unfold rule_bits. cbv zeta. rewrite <- RQ.
  destruct (Qle_bool 4 q) eqn:L.
  - apply Qle_bool_iff in L. split; [rewrite Qred_correct; auto|]. unfold bits_of. rewrite (Qeq_eqR _ _ (Qred_correct _)).
    rewrite Rmax_right; auto. rewrite <- B4. unfold bits_of.
    apply Rmult_le_compat_r; [lra|]. apply log2_le; [apply Q2R_pos; reflexivity|apply Q2R_pos; auto|apply Qle_Rle; auto].
  - split; [rewrite Qred_correct; reflexivity|]. unfold bits_of at 1. rewrite (Qeq_eqR _ _ (Qred_correct _)). fold (bits_of 4). rewrite B4.
    rewrite Rmax_left; auto. rewrite <- B4. unfold bits_of.
    apply Rmult_le_compat_r; [lra|]. apply log2_le; [apply Q2R_pos; auto|apply Q2R_pos; reflexivity|]. apply Qle_Rle.
    apply Qlt_le_weak. apply Qnot_le_lt. intros C. apply Qle_bool_iff in C. congruence.
Qed.

Theorem exception_bits_real N p fp fn : (fp <= p)%nat -> (p <= N)%nat -> (fn <= N - p)%nat ->
  exists q, exception_bits (Z.of_nat N) (Z.of_nat p) (Z.of_nat fp) (Z.of_nat fn) = Ok q /\ (1 <= q)%Q /\
    bits_of q = log2 (INR (binom p fp)) + log2 (INR (binom (N - p) fn)).
Proof.
  intros H1 H2 H3. unfold exception_bits. rewrite <- Nat2Z.inj_sub by auto. rewrite !nCr_binom.
  pose proof (binom_pos p fp H1) as A. pose proof (binom_pos (N - p) fn H3) as B.
  destruct (Z.of_nat (binom p fp) <=? 0)%Z eqn:Z1; [apply Z.leb_le in Z1; lia|].
  destruct (Z.of_nat (binom (N - p) fn) <=? 0)%Z eqn:Z2; [apply Z.leb_le in Z2; lia|].
  cbn [orb]. eexists. split; [reflexivity|]. split.
  - change 1%Q with (inject_Z 1). rewrite <- Zle_Qle. nia.
  - unfold bits_of. set (a := binom p fp) in *. set (b := binom (N - p) fn) in *.
    assert (E : Q2R (inject_Z (Z.of_nat a * Z.of_nat b * (Z.of_nat a * Z.of_nat b))) = (INR a * INR b) * (INR a * INR b)).
    { unfold Q2R, inject_Z. cbn [Qnum Qden]. rewrite !mult_IZR, <- !INR_IZR_INZ. field. }
    rewrite E. pose proof (INR_pos a A). pose proof (INR_pos b B).
    rewrite !log2_mult by (auto; apply Rmult_lt_0_compat; auto). field.
Qed.
Lemma bits_mult a b : (0 < a)%Q -> (0 < b)%Q -> bits_of (Qred (a * b)) = bits_of a + bits_of b.
Proof.
  intros A B. unfold bits_of. rewrite (Qeq_eqR _ _ (Qred_correct _)), Q2R_mult, log2_mult by (apply Q2R_pos; auto). field.
Qed.
Lemma bits_le a b : (0 < a)%Q -> (0 < b)%Q -> ((a <= b)%Q <-> bits_of a <= bits_of b).
Proof.
  intros A B. unfold bits_of. pose proof (log2_le _ _ (Q2R_pos _ A) (Q2R_pos _ B)) as L. split.
  - intros H. apply Qle_Rle, L in H. lra.
  - intros H. apply Rle_Qle, L. lra.
Qed.
