(** * QuantFacts.v : quantiles of different numbers, and the bins made from them *)
From Verif Require Import QuantSpec Cut CutFacts DiscFacts Prop_Bins.
From Coq Require Import Lqa Sorted Qabs.
Open Scope nat_scope.

Lemma nth_firstn {A} (l : list A) : forall a k x, nth_error (firstn a l) k = Some x -> nth_error l k = Some x.
Proof. induction l as [|y l IH]; intros [|a] [|k] x H; cbn in *; try discriminate; eauto. Qed.
Lemma nth_skipn {A} (l : list A) : forall c k, nth_error (skipn c l) k = nth_error l (c + k).
Proof. induction l as [|y l IH]; intros [|c] k; cbn; auto. destruct k; reflexivity. Qed.
Lemma firstn_snoc {A} (l : list A) : forall k x, nth_error l k = Some x -> firstn (S k) l = firstn k l ++ [x].
Proof. induction l as [|y l IH]; intros [|k] x H; try discriminate; [injection H as ->; reflexivity|]. cbn [firstn app]. f_equal. apply IH. exact H. Qed.

(** ** ranks *)
Section RANK.
Variables (s : list Q) (n : nat).
Hypothesis (SS : StronglySorted Qlt s) (N : 0 < n) (M : n < length s).
Let m := length s.
Let rk i := (m - 1) * i / n.

Lemma rk_step i : rk i < rk (i + 1).
Proof. unfold rk. apply Nat.lt_le_trans with ((m - 1) * i / n + 1); [lia|]. rewrite <- (Nat.div_add _ 1 n) by lia. apply Nat.div_le_mono; unfold m; nia. Qed.
Lemma rk_inner i : i < n -> rk i + 1 < m.
Proof. intros I. unfold rk. assert ((m - 1) * i / n < m - 1); [|lia]. apply Nat.div_lt_upper_bound; unfold m in *; nia. Qed.
Lemma rk_last : rk n = m - 1. Proof. unfold rk. apply Nat.div_mul. lia. Qed.
Lemma rk_le i j : i <= j -> rk i <= rk j. Proof. intros H. unfold rk. apply Nat.div_le_mono; [lia|]. apply Nat.mul_le_mono_l; auto. Qed.
Lemma at_lt i j : i < j -> j < m -> (at_q s i < at_q s j)%Q.
Proof.
  unfold at_q, m. generalize (last s 0%Q). clear M rk m. intros d. revert i j. induction SS as [|a l S' IH F]; intros i j I J; [cbn in J; lia|].
  destruct j as [|j]; [lia|]. destruct i as [|i]; cbn [nth].
  - rewrite Forall_forall in F. apply F, nth_In. cbn [length] in J. lia.
  - apply IH; auto; cbn [length] in J; lia.
Qed.
Lemma at_le i j : i <= j -> j < m -> (at_q s i <= at_q s j)%Q.
Proof. intros H J. destruct (Nat.eq_dec i j) as [->|]; [apply Qle_refl|]. apply Qlt_le_weak, at_lt; lia. Qed.
(** the i-th quantile splits the list after the first [rk i + 1] numbers *)
Lemma frac_lt i : (0 <= (Z.of_nat ((m - 1) * i mod n) # Pos.of_nat n))%Q /\ ((Z.of_nat ((m - 1) * i mod n) # Pos.of_nat n) < 1)%Q.
Proof.
  assert (K := Nat.mod_upper_bound ((m - 1) * i) n ltac:(lia)). assert (E : Z.pos (Pos.of_nat n) = Z.of_nat n) by (rewrite <- positive_nat_Z, Nat2Pos.id by lia; reflexivity).
  split; unfold Qle, Qlt; cbn [Qnum Qden]; lia.
Qed.
Lemma quant_ge i : i <= n -> (at_q s (rk i) <= quantile s n i)%Q.
Proof.
  intros I. unfold quantile. fold m. fold (rk i). rewrite Qred_correct. destruct (frac_lt i) as [F0 F1]. set (r := (Z.of_nat _ # _)%Q) in *.
  destruct (Nat.eq_dec i n) as [->|NI].
  - assert (R0 : (r == 0)%Q) by (unfold r; rewrite Nat.mod_mul by lia; reflexivity). rewrite R0. lra.
  - assert (L : (at_q s (rk i) < at_q s (S (rk i)))%Q) by (apply at_lt; [lia|]; assert (K := rk_inner i ltac:(lia)); lia). nra.
Qed.
Lemma quant_lt i : i < n -> (quantile s n i < at_q s (rk i + 1))%Q.
Proof.
  intros I. unfold quantile. fold m. fold (rk i). rewrite Qred_correct. destruct (frac_lt i) as [F0 F1]. set (r := (Z.of_nat _ # _)%Q) in *.
  assert (K := rk_inner i I). replace (rk i + 1) with (S (rk i)) by lia. assert (L : (at_q s (rk i) < at_q s (S (rk i)))%Q) by (apply at_lt; lia). nra.
Qed.
Lemma quant_last : (quantile s n n == at_q s (m - 1))%Q. Proof. apply quantile_last. auto. Qed.
Lemma quant_step i : i < n -> (quantile s n i < quantile s n (i + 1))%Q.
Proof.
  intros I. eapply Qlt_le_trans; [apply quant_lt; auto|]. eapply Qle_trans; [|apply quant_ge; lia]. assert (K := rk_step i).
  apply at_le; [lia|]. assert (K2 := rk_le (i + 1) n ltac:(lia)). rewrite rk_last in K2. unfold m in *. lia.
Qed.
Lemma quant_mono i j : i < j -> j <= n -> (quantile s n i < quantile s n j)%Q.
Proof.
  intros IJ. induction IJ as [|j IJ IH]; intros J; [replace (S i) with (i + 1) by lia; apply quant_step; lia|].
  eapply Qlt_trans; [apply IH; lia|]. replace (S j) with (j + 1) by lia. apply quant_step. lia.
Qed.
Lemma quantiles_strict : StronglySorted Qlt (quantiles s n).
Proof.
  unfold quantiles. assert (K : forall k a, a + k <= n + 1 -> StronglySorted Qlt (map (quantile s n) (seq a k))).
  { induction k as [|k IH]; intros a A; cbn [seq map]; constructor; [apply IH; lia|]. apply Forall_forall. intros y I. apply in_map_iff in I. destruct I as (j & <- & J). apply in_seq in J. apply quant_mono; lia. }
  apply K. lia.
Qed.
(** every bin between consecutive quantiles holds a number *)
Lemma bin_nonempty i : i < n -> In (at_q s (rk (i + 1))) s /\ (quantile s n i < at_q s (rk (i + 1)))%Q /\ (at_q s (rk (i + 1)) <= quantile s n (i + 1))%Q.
Proof.
  intros I. assert (K2 := rk_le (i + 1) n ltac:(lia)). rewrite rk_last in K2. split; [|split].
  - unfold at_q. apply nth_In. unfold m in *. lia.
  - eapply Qlt_le_trans; [apply quant_lt; auto|]. assert (K := rk_step i). apply at_le; [lia|]. unfold m in *. lia.
  - apply quant_ge. lia.
Qed.
Lemma quant_spec i : i < n -> quantile_of s n i (quantile s n i).
Proof.
  intros I. assert (K := rk_inner i I). exists (rk i), ((m - 1) * i mod n), (at_q s (rk i)), (at_q s (S (rk i))). split; [apply Nat.div_mod; lia|].
  split; [apply Nat.mod_upper_bound; lia|]. split; [apply nth_error_nth'; unfold m in *; lia|]. split; [apply nth_error_nth'; unfold m in *; lia|].
  unfold quantile. rewrite Qred_correct. reflexivity.
Qed.
Lemma quant_unique i x : i < n -> quantile_of s n i x -> (x == quantile s n i)%Q.
Proof.
  intros I (j & r & a & b & E & R & A & B & X). assert (J : (m - 1) * i / n = j) by (symmetry; apply (Nat.div_unique _ _ _ r); auto).
  assert (R' : (m - 1) * i mod n = r) by (symmetry; apply (Nat.mod_unique _ _ j); auto). unfold quantile. fold m. rewrite J, R'. rewrite Qred_correct.
  unfold at_q. rewrite (nth_error_nth _ _ _ A), (nth_error_nth _ _ _ B). exact X.
Qed.

(** the parts of [s] between the quantiles *)
Let cut_at i := match i with 0 => 0 | _ => rk i + 1 end.
Definition part i : list Q := firstn (cut_at (S i) - cut_at i) (skipn (cut_at i) s).
Lemma cut_mono i : i < n -> cut_at i < cut_at (S i).
Proof. intros I. assert (K := rk_step i). replace (i + 1) with (S i) in K by lia. unfold cut_at. destruct i; lia. Qed.
Lemma cut_pos i : 0 < i -> cut_at i = rk i + 1. Proof. intros I. unfold cut_at. destruct i; [lia|reflexivity]. Qed.
Lemma cut_end : cut_at n = m. Proof. rewrite cut_pos, rk_last by auto. unfold m. lia. Qed.
Lemma cut_le i : i <= n -> cut_at i <= m.
Proof. intros I. unfold cut_at. destruct i as [|i]; [lia|]. assert (K := rk_le (S i) n I). rewrite rk_last in K. unfold m in *. lia. Qed.
Lemma part_concat k : k <= n -> concat (map part (seq 0 k)) = firstn (cut_at k) s.
Proof.
  induction k as [|k IH]; intros K; [reflexivity|]. rewrite seq_S, map_app, concat_app, IH by lia. cbn [map concat plus]. rewrite app_nil_r. unfold part.
  assert (C := cut_mono k ltac:(lia)). rewrite <- (firstn_skipn (cut_at k) (firstn (cut_at (S k)) s)). rewrite firstn_firstn, Nat.min_l by lia. f_equal.
  rewrite firstn_skipn_comm. f_equal. f_equal. lia.
Qed.
Lemma parts_all : concat (map part (seq 0 n)) = s.
Proof. rewrite part_concat by lia. rewrite cut_end. apply firstn_all. Qed.
Lemma part_len i : i < n -> length (part i) = cut_at (S i) - cut_at i.
Proof. intros I. unfold part. rewrite firstn_length, skipn_length. fold m. assert (K := cut_le (S i) ltac:(lia)). lia. Qed.
Lemma part_size i : i < n -> length (part i) = (m - 1) / n \/ length (part i) = S ((m - 1) / n).
Proof.
  intros I. rewrite part_len by auto. unfold cut_at. destruct i as [|i].
  - right. unfold rk. rewrite Nat.mul_1_r. lia.
  - assert (K := rk_step (S i)). replace (S i + 1) with (S (S i)) in K by lia.
    assert (X : rk (S (S i)) = rk (S i) + (m - 1) / n \/ rk (S (S i)) = rk (S i) + (m - 1) / n + 1); [|lia].
    unfold rk. replace ((m - 1) * S (S i)) with ((m - 1) * S i + (m - 1)) by lia. generalize ((m - 1) * S i) as a. generalize (m - 1) as b. clear - N. intros b a.
    assert (A := Nat.div_mod a n ltac:(lia)). assert (B := Nat.div_mod b n ltac:(lia)). assert (A2 := Nat.mod_upper_bound a n ltac:(lia)). assert (B2 := Nat.mod_upper_bound b n ltac:(lia)).
    set (qa := a / n) in *. set (qb := b / n) in *. set (ra := a mod n) in *. set (rb := b mod n) in *. clearbody qa qb ra rb. subst a b.
    destruct (Nat.lt_ge_cases (ra + rb) n) as [L|L].
    + left. symmetry. apply (Nat.div_unique _ _ _ (ra + rb)); [exact L|]. ring.
    + right. symmetry. apply (Nat.div_unique _ _ _ (ra + rb - n)); [lia|]. replace (n * (qa + qb + 1)) with (n * qa + n * qb + n) by ring. lia.
Qed.
Lemma part_first : length (part 0) = S ((m - 1) / n).
Proof. rewrite part_len by lia. unfold cut_at, rk. rewrite Nat.mul_1_r. lia. Qed.
Lemma part_in i x : i < n -> In x (part i) -> In x s /\ (0 < i -> (quantile s n i < x)%Q) /\ (x <= quantile s n (i + 1))%Q.
Proof.
  intros I H. assert (C1 := cut_mono i I). assert (C2 := cut_le (i + 1) ltac:(lia)). destruct (In_nth_error _ _ H) as (k & E).
  assert (KL : k < length (part i)) by (apply nth_error_Some; congruence). rewrite part_len in KL by auto.
  assert (E' : nth_error s (cut_at i + k) = Some x). { unfold part in E. apply nth_firstn in E. rewrite nth_skipn in E. exact E. }
  assert (X : x = at_q s (cut_at i + k)) by (symmetry; apply nth_error_nth; auto). replace (S i) with (i + 1) in * by lia.
  split; [eapply nth_error_In; eauto|]. split.
  - intros P. eapply Qlt_le_trans; [apply quant_lt; auto|]. rewrite X. apply at_le; [|lia]. unfold cut_at. destruct i; lia.
  - eapply Qle_trans; [|apply quant_ge; lia]. rewrite X. apply at_le; [|assert (K2 := rk_le (i + 1) n ltac:(lia)); rewrite rk_last in K2; unfold m in *; lia].
    replace (cut_at (i + 1)) with (rk (i + 1) + 1) in KL by (unfold cut_at; destruct i; reflexivity). lia.
Qed.
End RANK.

(** ** the numbers of a column *)
Lemma sorted_same l1 : forall l2, StronglySorted Qlt l1 -> StronglySorted Qlt l2 -> incl l1 l2 -> incl l2 l1 -> l1 = l2.
Proof.
  induction l1 as [|a l1 IH]; intros [|b l2] S1 S2 I1 I2; auto; [destruct (I2 b); left; auto|destruct (I1 a); left; auto|].
  inversion S1 as [|? ? S1' F1]; subst. inversion S2 as [|? ? S2' F2]; subst. rewrite Forall_forall in F1, F2.
  assert (a = b) as <-.
  { destruct (I1 a) as [E|A]; [left; auto|auto|]. destruct (I2 b) as [E|B]; [left; auto|auto|]. apply F2 in A. apply F1 in B. exfalso. apply (Qlt_irrefl a). eapply Qlt_trans; eauto. }
  f_equal. apply IH; auto.
  - intros x X. destruct (I1 x) as [E|Y]; [right; auto| |exact Y]. subst x. exfalso. apply (Qlt_irrefl a). auto.
  - intros x X. destruct (I2 x) as [E|Y]; [right; auto| |exact Y]. subst x. exfalso. apply (Qlt_irrefl a). auto.
Qed.
Lemma Qred_eq x y : (x == y)%Q -> Qred x = Qred y. Proof. apply Qred_complete. Qed.
Lemma Qred_idem x : Qred (Qred x) = Qred x. Proof. apply Qred_complete, Qred_correct. Qed.
Lemma strict_map s : StronglySorted Qlt s -> StronglySorted Qlt (map Qred s).
Proof.
  induction 1 as [|a l S IH F]; cbn [map]; constructor; auto. rewrite Forall_forall in *. intros y I. apply in_map_iff in I. destruct I as (x & <- & I). rewrite !Qred_correct. auto.
Qed.
Lemma strict_nodup s : StronglySorted Qlt s -> NoDup s.
Proof. induction 1 as [|a l S IH F]; constructor; auto. intros I. rewrite Forall_forall in F. apply (Qlt_irrefl a). auto. Qed.
Lemma sort_length l : length (sort_q l) = length l.
Proof. induction l as [|x l IH]; auto. cbn [sort_q fold_right length]. rewrite <- IH. fold (sort_q l). generalize (sort_q l). intros t. induction t as [|y t IH2]; auto. cbn [insert_q]. destruct (Qle_bool x y); cbn [length]; auto. Qed.
Lemma nums_length cs : length (nums cs) <= length cs.
Proof. unfold nums. induction cs as [|v cs IH]; auto. cbn [flat_map]. rewrite app_length. cbn [length]. destruct (num_of v); cbn [length]; lia. Qed.
Lemma ranked_sort cs s : ranked cs s -> sort_q (nums cs) = map Qred s.
Proof.
  intros (SS & L & R). assert (SM := strict_map s SS). assert (ND := strict_nodup _ SM).
  assert (I1 : incl (map Qred s) (nums cs)).
  { intros x X. apply in_map_iff in X. destruct X as (y & <- & Y). destruct (R y Y) as (v & z & V & N & E). rewrite <- (Qred_eq _ _ E). eapply nums_In; eauto. }
  assert (LN := nums_length cs). assert (ND2 : NoDup (nums cs)) by (apply (NoDup_incl_NoDup (l := map Qred s)); auto; rewrite map_length; lia).
  assert (I2 : incl (map Qred s) (sort_q (nums cs))) by (intros x X; apply sort_q_In; auto).
  assert (LS : length (sort_q (nums cs)) <= length (map Qred s)) by (rewrite sort_length, map_length; lia).
  assert (ND3 : NoDup (sort_q (nums cs))) by (apply (NoDup_incl_NoDup (l := map Qred s)); auto).
  assert (I3 : incl (sort_q (nums cs)) (map Qred s)) by (apply NoDup_length_incl; auto).
  apply sorted_same; auto. assert (SQ := sort_q_sorted (nums cs)). revert ND3 I3 SQ. clear. generalize (sort_q (nums cs)). intros l ND I SQ.
  induction SQ as [|a l SQ IH F]; constructor; [apply IH; [inversion ND; auto|intros x X; apply I; right; auto]|].
  rewrite Forall_forall in *. intros b B. destruct (Qle_lt_or_eq _ _ (F b B)) as [K|K]; auto. exfalso. inversion ND as [|? ? NI _]; subst. apply NI.
  assert (RA : forall x, In x (a :: l) -> Qred x = x) by (intros x X; apply I in X; apply in_map_iff in X; destruct X as (y & <- & _); apply Qred_idem).
  rewrite <- (RA a (or_introl eq_refl)), (Qred_eq _ _ K), (RA b (or_intror B)). exact B.
Qed.
Lemma ranked_present cs s : ranked cs s -> has_missing cs = false.
Proof.
  intros RK. assert (E := ranked_sort cs s RK). apply (f_equal (@length Q)) in E. rewrite sort_length, map_length in E. destruct RK as (_ & L & _). rewrite L in E. clear L s.
  unfold nums in E. induction cs as [|v cs IH]; auto. cbn [flat_map has_missing existsb] in *. rewrite app_length in E. cbn [length] in E.
  assert (K := nums_length cs). unfold nums in K. destruct (num_of v); cbn [length] in E; [|lia]. cbn [orb]. apply IH. lia.
Qed.
Lemma ranked_more cs s n : ranked cs s -> numeric cs -> (n < Z.of_nat (length s))%Z -> more_than n cs.
Proof.
  intros (SS & L & R) NU N. assert (K : forall s', (forall x, In x s' -> In x s) -> exists us, Forall2 (fun u x => In u cs /\ exists y, num_of u = Some y /\ (y == x)%Q) us s').
  { induction s' as [|x s' IH]; intros I; [exists []; constructor|]. destruct IH as (us & F); [intros; apply I; right; auto|]. destruct (R x (I x (or_introl eq_refl))) as (v & y & V & E & Q). exists (v :: us). constructor; eauto. }
  destruct (K s (fun x X => X)) as (us & F). clear K. exists us. rewrite (Forall2_length _ _ _ F). split; auto. split.
  - intros u U. clear -F U. induction F as [|a b l l' (A & _) F IH]; [contradiction|]. destruct U as [<-|U]; auto.
  - clear -F SS NU. revert SS. induction F as [|a b l l' (A & y & Y & E) F IH]; intros SS; constructor; inversion SS as [|? ? SS' FA]; subst; auto.
    rewrite Forall_forall in *. intros u U SL. assert (X : exists x z, In x l' /\ In u cs /\ num_of u = Some z /\ (z == x)%Q).
    { clear -F U. induction F as [|c d t t' (C & w & W & D) F IH]; [contradiction|]. destruct U as [<-|U]; [exists d, w; split; [left; auto|auto]|]. destruct (IH U) as (x & z & X & Y). exists x, z. split; [right; auto|auto]. }
    destruct X as (x & z & X & V & Z & D). specialize (FA x X). assert (Q : py_eq a u = true -> (y == z)%Q).
    { intros P. destruct (NU a A) as [(k & ->)|[(k & d & ->)| ->] ], (NU u V) as [(k' & ->)|[(k' & d' & ->)| ->] ]; cbn in Y, Z, P; try discriminate; injection Y as <-; injection Z as <-; try (apply Qeq_bool_iff; exact P); try (apply Z.eqb_eq in P; subst; reflexivity). }
    unfold same_label, uniq_eq in SL. apply Bool.orb_prop in SL. destruct SL as [P|P]; [apply Q in P; lra|]. apply andb_prop in P. destruct P as [P _]. destruct a; cbn in P, Y; discriminate.
Qed.

(** ** the bins *)
Lemma edge_pairs_seq {A} (h : nat -> A) k : forall a, edge_pairs (map h (seq a (S k))) = map (fun i => (h i, h (S i))) (seq a k).
Proof. induction k as [|k IH]; intros a; [reflexivity|]. cbn [seq map]. rewrite edge_pairs_cons. f_equal. apply (IH (S a)). Qed.
Lemma mark_snd {A} (l : list A) : map snd (mark_first l) = l.
Proof. destruct l as [|a t]; auto. cbn [mark_first map snd]. f_equal. rewrite map_map. cbn [snd]. apply map_id. Qed.
Lemma extend_seq (sh : nat -> bound) k : let n := S (S k) in
  extend_bins (map (fun i => (sh i, sh (S i))) (seq 0 n)) =
  Ok (map (fun i => (if i =? 0 then BNInf else sh i, if S i =? n then BPInf else sh (S i))) (seq 0 n)).
Proof.
  intros n. unfold n. assert (E : seq 0 (S (S k)) = 0 :: seq 1 k ++ [S k]) by (rewrite seq_S; reflexivity). rewrite E. cbn [map]. rewrite !map_app. cbn [map]. rewrite extend_two. f_equal.
  f_equal. f_equal; [|cbn; rewrite Nat.eqb_refl; reflexivity]. apply map_ext_in. intros i I. apply in_seq in I. destruct (Nat.eqb_spec i 0); [lia|]. destruct (Nat.eqb_spec (S i) (S (S k))); [lia|]. reflexivity.
Qed.
Lemma round_exact p x z : 2 <= p -> (x == z # 100)%Q -> (rval (round_frac p x) == x)%Q.
Proof.
  intros P X. destruct (Qeq_dec x 0) as [E|E]; [rewrite round_frac_0 by auto; rewrite E; reflexivity|]. rewrite round_frac_nz by auto. unfold rval. cbn [fst snd]. set (d := p + lead0 x).
  assert (D : 2 <= d) by (unfold d; lia). assert (Y : (x * inject_Z (pow10z d) == inject_Z (z * pow10z (d - 2)))%Q).
  { rewrite X. replace d with (2 + (d - 2)) at 1 by lia. rewrite pow10_add, !inject_Z_mult. change (inject_Z (pow10z 2)) with 100%Q. unfold Qeq, Qmult, inject_Z. cbn [Qnum Qden]. lia. }
  rewrite (rint_comp _ _ Y), rint_int. apply (Qmult_inj_r _ _ (inject_Z (pow10z d))); [assert (K := inj_pow_pos d); lra|]. rewrite qdec_mul, Y. reflexivity.
Qed.
Lemma round_hundredth p x : 2 <= p -> (Qabs (rval (round_frac p x) - x) <= 1 # 200)%Q.
Proof.
  intros P. assert (K := round_near p x). assert (L := inj_pow_le 2 p P). change (inject_Z (pow10z 2)) with 100%Q in L. assert (N := Qabs_nonneg (rval (round_frac p x) - x)). nra.
Qed.
(** adjoining bins with increasing limits are ascending *)
Lemma ordpairs_nth {A} (R : A -> A -> Prop) l : (forall i j a b, i < j -> nth_error l i = Some a -> nth_error l j = Some b -> R a b) -> ForallOrdPairs R l.
Proof.
  induction l as [|x l IH]; intros H; constructor; [|apply IH; intros i j a b IJ A1 B1; apply (H (S i) (S j)); auto; lia].
  apply Forall_forall. intros y I. apply In_nth_error in I. destruct I as (k & K). apply (H 0 (S k)); auto. lia.
Qed.
Lemma increasing_nth l : forall i j a b, increasing l -> i < j -> nth_error l i = Some a -> nth_error l j = Some b -> lower_than a b.
Proof.
  assert (TR : forall a b c, lower_than a b -> lower_than b c -> lower_than a c).
  { intros a b c (x & y & A & B & L) (y' & z & B' & C & L'). exists x, z. split; auto. split; auto. assert (y' = y) as -> by congruence. lra. }
  assert (HD : forall t a, increasing (a :: t) -> forall b, In b t -> lower_than a b).
  { induction t as [|c t IH]; intros a I b B; [contradiction|]. cbn [increasing] in I. destruct I as (_ & L & I). destruct B as [<-|B]; auto. apply (TR a c b); auto. }
  induction l as [|x l IH]; intros i j a b I IJ A B; [destruct i; discriminate|]. destruct j as [|j]; [lia|]. destruct i as [|i]; cbn [nth_error] in A, B.
  - injection A as ->. apply (HD l); auto. eapply nth_error_In; eauto.
  - apply (IH i j); auto; [|lia]. cbn [increasing] in I. tauto.
Qed.
Lemma increasing_app l r : increasing (l ++ r) -> increasing l.
Proof.
  induction l as [|a l IH]; intros I; [exact Logic.I|]. cbn [app increasing] in *. destruct I as (F & L & I). split; auto. split; auto. destruct l; auto.
Qed.
Lemma adjoining_ascending ivs limits : adjoining ivs limits -> increasing limits -> ascending ivs.
Proof.
  intros [A1 A2] IN. apply ordpairs_nth. intros i j b c IJ B C x z [_ CX] [CZ _]. assert (LI := f_equal (@length _) A2). rewrite map_length, app_length in LI. cbn [length] in LI.
  assert (IB : i < length ivs) by (apply nth_error_Some; congruence). assert (IC : j < length ivs) by (apply nth_error_Some; congruence).
  assert (HB : nth_error (map snd ivs) i = Some (snd b)) by (rewrite nth_error_map, B; reflexivity). assert (HC : nth_error (map fst ivs) j = Some (fst c)) by (rewrite nth_error_map, C; reflexivity).
  rewrite A2 in HB. rewrite nth_error_app1 in HB by lia. rewrite A1 in HC. destruct j as [|j]; [lia|]. cbn [nth_error] in HC. unfold at_most in CX. unfold below in CZ.
  assert (FIN : forall k d, nth_error limits k = Some d -> exists u, bound_val d = FFin u).
  { clear -IN. induction limits as [|a l IH]; intros [|k] d D; try discriminate; cbn [increasing nth_error] in *; [injection D as <-; destruct IN as ((u & U) & _); eauto|apply (IH (proj2 (proj2 IN)) k d D)]. }
  destruct (Nat.eq_dec i j) as [->|NE].
  - assert (E : snd b = fst c) by congruence. rewrite <- E in CZ. destruct (FIN j _ HB) as (u & U). rewrite U in *. lra.
  - destruct (increasing_nth limits i j _ _ IN ltac:(lia) HB HC) as (u & v & U & V & L). rewrite U in CX. rewrite V in CZ. lra.
Qed.
(** where the limits of the bins of a column of different numbers lie *)
Lemma quantile_bins cs s n : ranked cs s -> (2 <= n)%Z -> (n < Z.of_nat (length s))%Z ->
  let q := Z.to_nat n in
  exists ivs limits, fit_labels (pandas_bins (pandas_cut n cs) cs) = Ok (map label ivs) /\ adjoining ivs limits /\ S (length limits) = q /\ length ivs = q /\ increasing limits /\
  (forall i b, nth_error limits i = Some b -> exists y, bound_val b = FFin y /\ (Qabs (y - quantile s q (S i)) <= 1 # 200)%Q /\ (forall z, (quantile s q (S i) == z # 100)%Q -> (y == quantile s q (S i))%Q)).
Proof.
  intros RK N2 NM q. assert (SS := proj1 RK). assert (SE := ranked_sort cs s RK). set (s0 := map Qred s) in *. assert (S0 : StronglySorted Qlt s0) by apply (strict_map s SS).
  assert (L0 : length s0 = length s) by apply map_length. assert (Q2 : 0 < q) by (unfold q; lia). assert (QM : q < length s) by (unfold q; lia). assert (QM0 : q < length s0) by lia.
  assert (QE : forall i, i < q -> (quantile s0 q i == quantile s q i)%Q).
  { intros i I. apply (quant_unique s q i); auto. destruct (quant_spec s0 q Q2 QM0 i I) as (j & r & a & b & E & R & A & B & X). rewrite L0 in E.
    unfold s0 in A, B. rewrite nth_error_map in A, B. destruct (nth_error s j) as [a'|] eqn:A'; [|discriminate]. destruct (nth_error s (S j)) as [b'|] eqn:B'; [|discriminate]. cbn [option_map] in A, B. injection A as <-. injection B as <-.
    exists j, r, a', b'. do 4 (split; auto). rewrite X, !Qred_correct. reflexivity. }
  set (p := infer_precision 2 (quantiles s0 q)). assert (P2 : 2 <= p) by apply infer_ge.
  set (h := fun i : nat => mkedge (quantile s0 q i) (float_bound (if i =? 0 then minus_unit p (round_frac p (quantile s0 q i)) else round_frac p (quantile s0 q i)))).
  assert (SH : show_edges true (quantiles s0 q) = map h (seq 0 (S q))).
  { unfold show_edges. fold p. unfold quantiles at 1. cbn [seq map]. f_equal. rewrite map_map. apply map_ext_in. intros i I. apply in_seq in I. unfold h. destruct (Nat.eqb_spec i 0); [lia|reflexivity]. }
  assert (PB : pandas_bins (map h (seq 0 (S q))) cs = map (fun i => (e_shown (h i), e_shown (h (S i)))) (seq 0 q)).
  { unfold pandas_bins. rewrite edge_pairs_seq. set (ep := map _ (seq 0 q)). assert (FA : filter (fun p0 => existsb (sorted_into (fst p0) (snd p0)) cs) (mark_first ep) = mark_first ep).
    { apply filter_all. intros [fl b] I. apply (in_map snd) in I. rewrite mark_snd in I. cbn [fst snd] in *. unfold ep in I. apply in_map_iff in I. destruct I as (i & <- & I). apply in_seq in I.
      destruct (bin_nonempty s0 q S0 Q2 QM0 i ltac:(lia)) as (X & X1 & X2). set (x := at_q _ _) in *. apply in_map_iff in X. destruct X as (x' & EX & X'). destruct RK as (_ & _ & R). destruct (R x' X') as (v & y & V & Y & E).
      apply existsb_exists. exists v. split; auto. unfold sorted_into. rewrite Y. cbn [fst snd]. unfold h at 1 2 3. cbn [e_at]. assert (YX : (y == x)%Q) by (rewrite E, <- EX, Qred_correct; reflexivity). replace (S i) with (i + 1) by lia.
      apply andb_true_intro. split; [destruct fl; [apply Qle_bool_iff|apply Qlt_b_iff]; rewrite YX; [apply Qlt_le_weak|]; exact X1|]. apply Qle_bool_iff. rewrite YX. exact X2. }
    rewrite FA. rewrite <- (map_map snd shown_bin), mark_snd. unfold ep. rewrite map_map. reflexivity. }
  assert (PC : pandas_cut n cs = map h (seq 0 (S q))).
  { unfold pandas_cut. rewrite SE. fold q. rewrite (drop_strict _ (quantiles_strict s0 q S0 Q2 QM0)), SH, PB, (ranked_present cs s RK). rewrite map_length, seq_length.
    destruct (Nat.ltb_spec (q + 0) 2); [unfold q in *; lia|reflexivity]. }
  assert (EQ : q = S (S (q - 2))) by (unfold q; lia). set (sh := fun i => e_shown (h i)) in *.
  set (ivs := map (fun i => (if i =? 0 then BNInf else sh i, if S i =? q then BPInf else sh (S i))) (seq 0 q)). exists ivs, (map sh (seq 1 (q - 1))).
  assert (EX : extend_bins (map (fun i => (sh i, sh (S i))) (seq 0 q)) = Ok ivs) by (unfold ivs; rewrite EQ; apply extend_seq).
  split; [rewrite PC, PB; unfold fit_labels; change (fun i => (e_shown (h i), e_shown (h (S i)))) with (fun i => (sh i, sh (S i))); rewrite EX; reflexivity|].
  split; [|split; [rewrite map_length, seq_length; lia|split; [unfold ivs; rewrite map_length, seq_length; reflexivity|split] ] ].
  - unfold adjoining, ivs. rewrite !map_map. cbn [fst snd]. split.
    + replace q with (S (q - 1)) at 1 by lia. cbn [seq map]. change (0 =? 0) with true. cbn iota. f_equal. apply map_ext_in. intros i I. apply in_seq in I. destruct (Nat.eqb_spec i 0); [lia|reflexivity].
    + replace (seq 0 q) with (seq 0 (S (q - 1))) by (f_equal; lia). rewrite seq_S, map_app. cbn [map plus]. f_equal.
      * rewrite <- seq_shift, map_map. apply map_ext_in. intros i I. apply in_seq in I. destruct (Nat.eqb_spec (S i) q); [lia|reflexivity].
      * destruct (Nat.eqb_spec (S (q - 1)) q); [reflexivity|lia].
  - assert (INC := show_strict true _ (quantiles_strict s0 q S0 Q2 QM0)). rewrite SH, map_map in INC. change (increasing (map sh (seq 0 (S q)))) in INC.
    assert (ES : seq 0 (S q) = 0 :: seq 1 (q - 1) ++ [q]). { rewrite seq_S. cbn [plus]. replace (seq 0 q) with (seq 0 (S (q - 1))) by (f_equal; lia). reflexivity. }
    rewrite ES in INC. cbn [map increasing] in INC. rewrite map_app in INC. apply (increasing_app _ _ (proj2 (proj2 INC))).
  - intros i b B. rewrite nth_error_map in B. destruct (nth_error (seq 1 (q - 1)) i) as [k|] eqn:K; [|discriminate]. injection B as <-.
    assert (IL : i < q - 1) by (rewrite <- (seq_length (q - 1) 1); apply nth_error_Some; congruence). assert (k = S i) as -> by (rewrite (nth_error_nth' _ 0) in K by (rewrite seq_length; lia); rewrite seq_nth in K by lia; injection K; auto).
    unfold sh, h. cbn [e_shown Nat.eqb]. destruct (float_bound_val (round_frac p (quantile s0 q (S i)))) as (y & Y & E). exists y. split; auto. assert (QI := QE (S i) ltac:(lia)). split.
    + rewrite E, <- QI. apply round_hundredth. auto.
    + intros z Z. rewrite E, <- QI. apply (round_exact p _ z); auto. rewrite QI. exact Z.
Qed.
