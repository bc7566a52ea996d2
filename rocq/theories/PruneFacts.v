(** * PruneFacts.v : pruning returns the shortest best prefix *)
From Verif Require Export Engine.
From Coq Require Import Lqa.
Open Scope nat_scope.

Lemma prune_loop_spec metric r (v : nat -> Q) n : forall bv best,
  (forall j, 1 <= j <= n -> metric (set_conds r (firstn j (conds r))) = Ok (Some (v j))) ->
  exists res, prune_loop metric r n bv best = Ok (Some res) /\
  ((res = best /\ forall j, 1 <= j <= n -> (v j < bv)%Q) \/
   (exists j, 1 <= j <= n /\ res = Some (set_conds r (firstn j (conds r))) /\ (bv <= v j)%Q /\
      forall k, 1 <= k <= n -> (v k <= v j)%Q /\ (k < j -> (v k < v j)%Q))).
Proof.
  induction n as [|n IH]; intros bv best H.
  - exists best. split; [reflexivity|]. left. split; auto. intros; lia.
  - cbn [prune_loop]. rewrite (H (S n)) by lia. cbn [bind].
    destruct (Qle_bool bv (v (S n))) eqn:L.
    + apply Qle_bool_iff in L. destruct (IH (v (S n)) (Some (set_conds r (firstn (S n) (conds r))))) as (res & R & D).
      { intros; apply H; lia. }
      exists res. split; auto. right. destruct D as [[-> D]|(j & J & -> & D1 & D2)].
      * exists (S n). split; [lia|]. split; auto. split; auto. intros k K.
        destruct (Nat.eq_dec k (S n)) as [->|Ne]; [split; [lra|lia]|]. specialize (D k ltac:(lia)). split; [lra|intros; lra].
      * exists j. split; [lia|]. split; auto. split; [lra|]. intros k K.
        destruct (Nat.eq_dec k (S n)) as [->|Ne]; [split; [lra|lia]|]. apply D2; lia.
    + assert (L' : (v (S n) < bv)%Q).
      { apply Qnot_le_lt. intros C. apply Qle_bool_iff in C. congruence. }
      destruct (IH bv best) as (res & R & D). { intros; apply H; lia. }
      exists res. split; auto. destruct D as [[-> D]|(j & J & -> & D1 & D2)].
      * left. split; auto. intros j J. destruct (Nat.eq_dec j (S n)) as [->|Ne]; [auto|]. apply D; lia.
      * right. exists j. split; [lia|]. split; auto. split; auto. intros k K.
        destruct (Nat.eq_dec k (S n)) as [->|Ne]; [split; [lra|lia]|]. apply D2; lia.
Qed.

Lemma prefix_firstn {A} (p l : list A) : Spec.prefix p l <-> p = firstn (length p) l /\ length p <= length l.
Proof.
  split.
  - intros [s ->]. rewrite firstn_app, Nat.sub_diag, firstn_all. cbn. rewrite app_nil_r, app_length. split; [auto|lia].
  - intros [H _]. exists (skipn (length p) l). rewrite H at 1. symmetry. apply firstn_skipn.
Qed.
Lemma firstn_prefix {A} n (l : list A) : Spec.prefix (firstn n l) l.
Proof. exists (skipn n l). symmetry. apply firstn_skipn. Qed.
Lemma set_conds_all r : set_conds r (conds r) = r.
Proof. destruct r; reflexivity. Qed.
Lemma firstn_ne {A} j (l : list A) : 1 <= j -> l <> [] -> firstn j l <> [].
Proof. intros J. destruct l; [congruence|]. intros _. destruct j; [lia|]. discriminate. Qed.

Definition prune_best (v : list cond -> Q) (cs b : list cond) : Prop :=
  Spec.prefix b cs /\ b <> [] /\ (0 <= v b)%Q /\
  forall p, Spec.prefix p cs -> p <> [] -> (v p <= v b)%Q /\ (length p < length b -> (v p < v b)%Q).

Lemma prune_rule_spec metric r (v : list cond -> Q) : conds r <> [] ->
  (forall p, Spec.prefix p (conds r) -> p <> [] -> metric (set_conds r p) = Ok (Some (v p))) ->
  exists b, prune_rule metric r = Ok (Some (set_conds r b)) /\ Spec.prefix b (conds r) /\ b <> [] /\
    ((exists p, Spec.prefix p (conds r) /\ p <> [] /\ (0 <= v p)%Q) -> prune_best v (conds r) b) /\
    ((forall p, Spec.prefix p (conds r) -> p <> [] -> (v p < 0)%Q) -> b = conds r).
Proof.
  intros NE H. unfold prune_rule, rule_isempty. destruct (conds r) as [|c t] eqn:C; [congruence|]. rewrite <- C in *. clear c t C.
  destruct (prune_loop_spec metric r (fun j => v (firstn j (conds r))) (length (conds r)) 0 (Some r)) as (res & R & D).
  { intros j J. apply H; [apply firstn_prefix|]. apply firstn_ne; [lia|auto]. }
  rewrite R. cbn [bind]. destruct D as [[-> D]|(j & J & -> & D1 & D2)].
  - exists (conds r). rewrite set_conds_all. split; [auto|]. split; [apply prefix_refl|]. split; [auto|]. split; [|auto].
    intros (p & P & PN & V). exfalso. apply prefix_firstn in P. destruct P as [P1 P2].
      assert (length p <> 0) by (destruct p; [congruence|discriminate]).
      specialize (D (length p) ltac:(lia)). cbn in D. rewrite <- P1 in D. lra.
  - assert (FN : firstn j (conds r) <> []) by (apply firstn_ne; [lia|auto]).
    exists (firstn j (conds r)). split; auto. split; [apply firstn_prefix|]. split; auto. split.
    + intros _. split; [apply firstn_prefix|]. split; auto. split; [exact D1|]. intros p P PN.
      apply prefix_firstn in P. destruct P as [P1 P2].
      assert (length p <> 0) by (destruct p; [congruence|discriminate]).
      specialize (D2 (length p) ltac:(lia)). rewrite <- P1 in D2. rewrite firstn_length, Nat.min_l by lia. exact D2.
    + intros N. specialize (N _ (firstn_prefix j (conds r)) FN). lra.
Qed.
Lemma prune_rule_empty metric r : conds r = [] -> prune_rule metric r = Ok (Some r).
Proof. unfold prune_rule, rule_isempty. intros ->. reflexivity. Qed.

Lemma prune_rule_on_spec metric i rs r (v : list cond -> Q) : conds r <> [] -> nth_error rs i = Some r ->
  (forall p, Spec.prefix p (conds r) -> p <> [] -> metric (set_conds r p) = Ok (Some (v p))) ->
  ((exists p, Spec.prefix p (conds r) /\ p <> [] /\ (0 <= v p)%Q) ->
     exists b, prune_rule_on metric i rs r = Ok (Some (set_conds r b)) /\ prune_best v (conds r) b) /\
  ((forall p, Spec.prefix p (conds r) -> p <> [] -> (v p < 0)%Q) -> prune_rule_on metric i rs r = Err UnboundLocalError).
Proof.
  intros NE NT H. unfold prune_rule_on, rule_isempty. destruct (conds r) as [|c t] eqn:C; [congruence|]. rewrite <- C in *. clear c t C.
  rewrite NT, rule_eqb_refl. cbn [negb].
  destruct (prune_loop_spec metric r (fun j => v (firstn j (conds r))) (length (conds r)) 0 None) as (res & R & D).
  { intros j J. apply H; [apply firstn_prefix|]. apply firstn_ne; [lia|auto]. }
  rewrite R. cbn [bind]. destruct D as [[-> D]|(j & J & -> & D1 & D2)].
  - split; [|reflexivity].
    intros (p & P & PN & V). apply prefix_firstn in P. destruct P as [P1 P2].
    assert (length p <> 0) by (destruct p; [congruence|discriminate]).
    specialize (D (length p) ltac:(lia)). cbn in D. rewrite <- P1 in D. lra.
  - assert (FN : firstn j (conds r) <> []) by (apply firstn_ne; [lia|auto]).
    split.
    + intros _. exists (firstn j (conds r)). split; auto. split; [apply firstn_prefix|]. split; auto. split; [exact D1|]. intros p P PN.
      apply prefix_firstn in P. destruct P as [P1 P2].
      assert (length p <> 0) by (destruct p; [congruence|discriminate]).
      specialize (D2 (length p) ltac:(lia)). rewrite <- P1 in D2. rewrite firstn_length, Nat.min_l by lia. exact D2.
    + intros N. specialize (N _ (firstn_prefix j (conds r)) FN). lra.
Qed.

(** whatever the metric, a pruned rule is the rule itself or one of its non-empty prefixes *)
Lemma prune_loop_any metric r n : forall bv best res, prune_loop metric r n bv best = Ok (Some res) ->
  res = best \/ exists j, 1 <= j <= n /\ res = Some (set_conds r (firstn j (conds r))).
Proof.
  induction n as [|n IH]; intros bv best res H; cbn [prune_loop] in H.
  - injection H as <-. auto.
  - binv H. destruct v as [q|]; [|discriminate]. destruct (Qle_bool bv q).
    + destruct (IH _ _ _ H) as [->|(j & J & ->)]; right; [exists (S n)|exists j]; split; auto; lia.
    + destruct (IH _ _ _ H) as [->|(j & J & ->)]; [auto|right; exists j; split; auto; lia].
Qed.
Lemma prune_rule_any metric r s : prune_rule metric r = Ok (Some s) ->
  exists b, s = set_conds r b /\ Spec.prefix b (conds r) /\ (conds r <> [] -> b <> []).
Proof.
  unfold prune_rule, rule_isempty. destruct (conds r) as [|c t] eqn:C.
  - intros H. injection H as <-. exists []. split; [|split]; [|apply prefix_refl|auto]. rewrite <- C, set_conds_all. auto.
  - rewrite <- C. intros H. binv H. destruct v as [res|]; [|discriminate]. injection H as ->.
    apply prune_loop_any in E. destruct E as [X|(j & J & X)].
    + injection X as ->. exists (conds r). rewrite set_conds_all. split; auto. split; [apply prefix_refl|]. auto.
    + injection X as ->. exists (firstn j (conds r)). split; auto. split; [apply firstn_prefix|]. intros N. apply firstn_ne; auto; lia.
Qed.
Lemma prune_rule_on_any metric i rs r s : prune_rule_on metric i rs r = Ok (Some s) ->
  exists b, s = set_conds r b /\ Spec.prefix b (conds r) /\ (conds r <> [] -> b <> []).
Proof.
  unfold prune_rule_on, rule_isempty. destruct (conds r) as [|c t] eqn:C.
  - intros H. injection H as <-. exists []. split; [|split]; [|apply prefix_refl|auto]. rewrite <- C, set_conds_all. auto.
  - rewrite <- C. destruct (nth_error rs i) as [x|]; [|discriminate]. destruct (negb _); [discriminate|].
    intros H. binv H. destruct v as [[res|]|]; try discriminate. injection H as ->.
    apply prune_loop_any in E. destruct E as [X|(j & J & X)]; [discriminate|].
    injection X as ->. exists (firstn j (conds r)). split; auto. split; [apply firstn_prefix|]. intros N. apply firstn_ne; auto; lia.
Qed.

(** metric values *)
Lemma irep_metric_value P N p n : P + N <> 0 -> p <= P -> n <= N ->
  exists q, irep_metric P N p n = Ok (Some q) /\ (q == qn (p + (N - n)) / qn (P + N))%Q /\ (0 <= q <= 1)%Q.
Proof.
  intros NZ Hp Hn. unfold irep_metric. destruct (P + N =? 0) eqn:Z0; [apply Nat.eqb_eq in Z0; lia|].
  eexists. split; [reflexivity|].
  assert (X : (zq (Z.of_nat p + (Z.of_nat N - Z.of_nat n)) = qn (p + (N - n)))) by (unfold zq, qn; f_equal; lia).
  rewrite X. split; [reflexivity|]. apply qdiv_range; lia.
Qed.
Lemma accuracy_metric_value P N p n : P + N <> 0 -> p <= P -> n <= N ->
  exists q, accuracy_metric P N p n = Ok (Some q) /\ (q == qn (p + (N - n)) / qn (P + N))%Q /\ (0 <= q <= 1)%Q.
Proof.
  intros NZ Hp Hn. unfold accuracy_metric. destruct (P + N =? 0) eqn:Z0; [apply Nat.eqb_eq in Z0; lia|].
  eexists. split; [reflexivity|].
  assert (X : (zq (Z.of_nat p + (Z.of_nat N - Z.of_nat n)) = qn (p + (N - n)))) by (unfold zq, qn; f_equal; lia).
  rewrite X. split; [reflexivity|]. apply qdiv_range; lia.
Qed.
