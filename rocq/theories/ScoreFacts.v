(** * ScoreFacts.v : score functions (C45) *)
From Verif Require Export MetricsFacts.
From Coq Require Import Qfield.
Open Scope nat_scope.

Lemma tally_total acts preds : length acts = length preds ->
  tally true true acts preds + tally false true acts preds + tally true false acts preds + tally false false acts preds = length acts.
Proof.
  unfold tally. revert preds; induction acts as [|a l IH]; intros [|p preds] E; try discriminate; auto.
  injection E as E. specialize (IH preds E). cbn [combine filter fst snd].
  destruct a, p; cbn [Bool.eqb andb length] in *; lia.
Qed.
Lemma count_preds acts preds : length acts = length preds ->
  count_true preds = tally true true acts preds + tally false true acts preds.
Proof.
  unfold tally, count_true. revert preds; induction acts as [|a l IH]; intros [|p preds] E; try discriminate; auto.
  injection E as E. specialize (IH preds E). cbn [combine filter fst snd].
  destruct a, p; cbn [Bool.eqb andb length filter] in *; lia.
Qed.
Lemma count_acts acts preds : length acts = length preds ->
  count_true acts = tally true true acts preds + tally true false acts preds.
Proof.
  unfold tally, count_true. revert preds; induction acts as [|a l IH]; intros [|p preds] E; try discriminate; auto.
  injection E as E. specialize (IH preds E). cbn [combine filter fst snd].
  destruct a, p; cbn [Bool.eqb andb length filter] in *; lia.
Qed.
Lemma count_both acts preds : length acts = length preds ->
  count_true (zip_and preds acts) = tally true true acts preds.
Proof.
  unfold tally, count_true, zip_and. revert preds; induction acts as [|a l IH]; intros [|p preds] E; try discriminate; auto.
  injection E as E. specialize (IH preds E). cbn [combine filter map fst snd].
  destruct a, p; cbn [Bool.eqb andb length filter] in *; lia.
Qed.
Lemma count_same acts preds : length acts = length preds ->
  length (filter (fun x => Bool.eqb (fst x) (snd x)) (combine preds acts)) = tally true true acts preds + tally false false acts preds.
Proof.
  unfold tally. revert preds; induction acts as [|a l IH]; intros [|p preds] E; try discriminate; auto.
  injection E as E. specialize (IH preds E). cbn [combine filter fst snd].
  destruct a, p; cbn [Bool.eqb andb length] in *; lia.
Qed.

Lemma qn_nonneg n : (0 <= qn n)%Q.
Proof. unfold qn. change 0%Q with (inject_Z 0). rewrite <- Zle_Qle. lia. Qed.
Lemma qn_pos n : 0 < n -> (0 < qn n)%Q.
Proof. intros H. unfold qn. change 0%Q with (inject_Z 0). rewrite <- Zlt_Qlt. lia. Qed.
Lemma qn_le a b : a <= b -> (qn a <= qn b)%Q.
Proof. intros H. unfold qn. rewrite <- Zle_Qle. lia. Qed.
Lemma qn_lt a b : a < b <-> (qn a < qn b)%Q.
Proof. unfold qn. rewrite <- Zlt_Qlt. lia. Qed.
Lemma qn_plus a b : (qn (a + b) == qn a + qn b)%Q.
Proof. unfold qn. rewrite Nat2Z.inj_add, inject_Z_plus. reflexivity. Qed.
Lemma qn_eq0 n : (qn n == 0)%Q <-> n = 0.
Proof. split; [|intros ->; reflexivity]. intros H. destruct n; auto. exfalso. assert (0 < qn (S n))%Q by (apply qn_pos; lia). rewrite H in H0. discriminate. Qed.
Lemma qdiv_range a b : a <= b -> 0 < b -> (0 <= qdiv a b <= 1)%Q.
Proof.
  intros H Hb. unfold qdiv. assert (P := qn_pos b Hb). split.
  - apply Qle_shift_div_l; auto. rewrite Qmult_0_l. apply qn_nonneg.
  - apply Qle_shift_div_r; auto. rewrite Qmult_1_l. apply qn_le; auto.
Qed.

Lemma accuracy_value acts preds : length acts = length preds ->
  let tp := tally true true acts preds in let tn := tally false false acts preds in
  (acts = [] -> score_accuracy acts preds = Ok None) /\
  (acts <> [] -> exists q, score_accuracy acts preds = Ok (Some q) /\ (q == qn (tp + tn) / qn (length acts))%Q /\ (0 <= q <= 1)%Q).
Proof.
  intros L tp tn. unfold score_accuracy. rewrite L, Nat.eqb_refl. cbn [negb]. rewrite <- L. split.
  - intros ->. reflexivity.
  - intros Hne. assert (0 < length acts) by (destruct acts; [congruence|cbn; lia]).
    destruct (Nat.eqb_spec (length acts) 0); [lia|]. eexists; split; [reflexivity|]. rewrite count_same by auto. split; [reflexivity|].
    apply qdiv_range; auto. assert (T := tally_total acts preds L). lia.
Qed.
Lemma precision_value acts preds : length acts = length preds ->
  let tp := tally true true acts preds in let fp := tally false true acts preds in
  (tp + fp = 0 -> score_precision acts preds = Ok None) /\
  (tp + fp <> 0 -> exists q, score_precision acts preds = Ok (Some q) /\ (q == qn tp / qn (tp + fp))%Q /\ (0 <= q <= 1)%Q).
Proof.
  intros L tp fp. unfold score_precision. rewrite L, Nat.eqb_refl. cbn [negb]. rewrite (count_preds acts preds L), (count_both acts preds L).
  fold tp fp. split.
  - intros ->. reflexivity.
  - intros Hne. destruct (Nat.eqb_spec (tp + fp) 0); [lia|]. eexists; split; [reflexivity|]. split; [reflexivity|].
    apply qdiv_range; lia.
Qed.
Lemma recall_value acts preds : length acts = length preds ->
  let tp := tally true true acts preds in let fn := tally true false acts preds in
  (tp + fn = 0 -> score_recall acts preds = Ok None) /\
  (tp + fn <> 0 -> exists q, score_recall acts preds = Ok (Some q) /\ (q == qn tp / qn (tp + fn))%Q /\ (0 <= q <= 1)%Q).
Proof.
  intros L tp fn. unfold score_recall. rewrite L, Nat.eqb_refl. cbn [negb]. rewrite (count_acts acts preds L), (count_both acts preds L).
  fold tp fn. split.
  - intros ->. reflexivity.
  - intros Hne. destruct (Nat.eqb_spec (tp + fn) 0); [lia|]. eexists; split; [reflexivity|]. split; [reflexivity|].
    apply qdiv_range; lia.
Qed.
Lemma qdiv_0 n : (qn 0 / qn n == 0)%Q.
Proof. unfold Qdiv. change (qn 0) with 0%Q. ring. Qed.
Lemma f1_algebra t f g : (0 < t)%Q -> (0 <= f)%Q -> (0 <= g)%Q ->
  (2 * (t / (t + f)) * (t / (t + g)) / (t / (t + f) + t / (t + g)) == (t + (t + 0)) / (t + (t + 0) + f + g))%Q.
Proof.
  intros Ht Hf Hg.
  assert (P : forall x, (0 < x)%Q -> ~ (x == 0)%Q) by (intros x Hx E; rewrite E in Hx; discriminate).
  assert (A : (0 < t + f)%Q) by (apply (Qplus_lt_le_compat 0 t 0 f); auto).
  assert (B : (0 < t + g)%Q) by (apply (Qplus_lt_le_compat 0 t 0 g); auto).
  assert (C : (0 < (t + f) + (t + g))%Q) by (apply (Qplus_lt_le_compat 0 (t + f) 0 (t + g)); auto using Qlt_le_weak).
  assert (E : (t / (t + f) + t / (t + g) == t * ((t + f) + (t + g)) / ((t + f) * (t + g)))%Q) by (field; auto).
  rewrite E. field. repeat split; auto.
  - apply P. rewrite <- (Qplus_0_l 0). eapply Qlt_le_trans; [apply C|]. ring_simplify. apply Qle_refl.
Qed.
Lemma f1_of_value tp fp fn : tp <> 0 -> forall p r, (p == qn tp / qn (tp + fp))%Q -> (r == qn tp / qn (tp + fn))%Q ->
  exists q, f1_of (Some p) (Some r) = Some q /\ (q == qn (2 * tp) / qn (2 * tp + fp + fn))%Q.
Proof.
  intros Ht p r Hp Hr. assert (T := qn_pos tp ltac:(lia)).
  assert (A : ~ (qn (tp + fp) == 0)%Q) by (rewrite qn_eq0; lia). assert (B : ~ (qn (tp + fn) == 0)%Q) by (rewrite qn_eq0; lia).
  assert (Pp : (0 < p)%Q). { rewrite Hp. apply Qlt_shift_div_l; [apply qn_pos; lia|]. rewrite Qmult_0_l; auto. }
  assert (Pr : (0 < r)%Q). { rewrite Hr. apply Qlt_shift_div_l; [apply qn_pos; lia|]. rewrite Qmult_0_l; auto. }
  assert (S : ~ (p + r == 0)%Q). { intros E. assert (0 < p + r)%Q by (apply (Qplus_lt_le_compat 0 p 0 r); auto using Qlt_le_weak). rewrite E in H. discriminate. }
  unfold f1_of. destruct (Qeq_bool (p + r) 0) eqn:E; [apply Qeq_bool_iff in E; contradiction|].
  eexists; split; [reflexivity|].
  assert (C : ~ (qn (2 * tp + fp + fn) == 0)%Q) by (rewrite qn_eq0; lia).
  rewrite Hp, Hr. rewrite !qn_plus. change (2 * tp) with (tp + (tp + 0)). rewrite !qn_plus. change (qn 0) with 0%Q.
  rewrite qn_plus in A, B. rewrite f1_algebra; auto using qn_nonneg.
  apply Qeq_refl || (unfold Qdiv; ring).
Qed.
Lemma f1_value acts preds : length acts = length preds ->
  let tp := tally true true acts preds in let fp := tally false true acts preds in let fn := tally true false acts preds in
  (tp = 0 -> score_f1 acts preds = Ok None) /\
  (tp <> 0 -> exists q, score_f1 acts preds = Ok (Some q) /\ (q == qn (2 * tp) / qn (2 * tp + fp + fn))%Q /\ (0 <= q <= 1)%Q).
Proof.
  intros L tp fp fn. unfold score_f1. rewrite L, Nat.eqb_refl. cbn [negb].
  destruct (precision_value acts preds L) as [P0 P1], (recall_value acts preds L) as [R0 R1]. fold tp fp fn in P0, P1, R0, R1.
  split.
  - intros Ht. destruct (Nat.eq_dec (tp + fp) 0) as [E|E]; [rewrite P0 by auto|destruct (P1 E) as (p & -> & Hp & _)].
    + destruct (Nat.eq_dec (tp + fn) 0) as [F|F]; [rewrite R0 by auto|destruct (R1 F) as (r & -> & Hr & _)]; reflexivity.
    + destruct (Nat.eq_dec (tp + fn) 0) as [F|F]; [rewrite R0 by auto|destruct (R1 F) as (r & -> & Hr & _)]; [reflexivity|].
      cbn [bind f1_of]. rewrite Ht, qdiv_0 in Hp, Hr. destruct (Qeq_bool (p + r) 0) eqn:G; auto.
      exfalso. assert (Qeq_bool (p + r) 0 = true); [|congruence]. apply Qeq_bool_iff. rewrite Hp, Hr. reflexivity.
  - intros Ht. destruct (P1 ltac:(lia)) as (p & -> & Hp & _), (R1 ltac:(lia)) as (r & -> & Hr & _). cbn [bind].
    destruct (f1_of_value tp fp fn Ht p r Hp Hr) as (q & -> & Hq). exists q; split; auto. split; auto.
    rewrite Hq. apply qdiv_range; lia.
Qed.
Lemma score_lengths acts preds : length acts <> length preds ->
  score_accuracy acts preds = Err ValueError /\ score_precision acts preds = Err ValueError /\
  score_recall acts preds = Err ValueError /\ score_f1 acts preds = Err ValueError.
Proof.
  intros L. unfold score_accuracy, score_precision, score_recall, score_f1. apply Nat.eqb_neq in L. rewrite L. auto.
Qed.
