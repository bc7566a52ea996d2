(** * GainFacts.v : FOIL gain in the log domain, and the scan for the best candidate *)
From Verif Require Export Learn ScoreFacts.
From Coq Require Import Qpower Lqa QArith.
Open Scope nat_scope.

Lemma Qlt_b_iff a b : Qlt_b a b = true <-> (a < b)%Q.
Proof.
  unfold Qlt_b. rewrite Bool.negb_true_iff. destruct (Qle_bool b a) eqn:H.
  - apply Qle_bool_iff in H. split; [discriminate|]. intros. exfalso. apply (Qlt_not_le _ _ H0 H).
  - split; auto. intros _. apply Qnot_le_lt. intros C. apply Qle_bool_iff in C. congruence.
Qed.
Lemma Qlt_b_false a b : Qlt_b a b = false <-> (b <= a)%Q.
Proof.
  destruct (Qlt_b a b) eqn:H.
  - apply Qlt_b_iff in H. split; [discriminate|]. intros C. exfalso. apply (Qlt_not_le _ _ H C).
  - split; auto. intros _. unfold Qlt_b in H. apply Bool.negb_false_iff in H. apply Qle_bool_iff; auto.
Qed.

Lemma laplace_pos p n : (0 < laplace p n)%Q.
Proof. unfold laplace, Qlt. cbn. lia. Qed.
Lemma laplace_lt p n p' n' : (laplace p n < laplace p' n')%Q <-> (p + 1) * (p' + n' + 1) < (p' + 1) * (p + n + 1).
Proof.
  unfold laplace, Qlt. cbn [Qnum Qden]. rewrite <- !positive_nat_Z, !Nat2Pos.id by lia. lia.
Qed.

Lemma Qpower_gt1 q n : (1 < q)%Q -> 0 < n -> (1 < Qpower q (Z.of_nat n))%Q.
Proof.
  intros H. induction n as [|n IH]; [lia|]. intros _.
  destruct n as [|n].
  - cbn. exact H.
  - rewrite Nat2Z.inj_succ. unfold Z.succ. rewrite Qpower_plus by lra.
    specialize (IH ltac:(lia)). change (q ^ 1)%Q with q.
    assert (1 * 1 < q ^ Z.of_nat (S n) * q)%Q; [|lra]. nra.
Qed.
Lemma Qpower_le1 q n : (0 < q)%Q -> (q <= 1)%Q -> (0 < Qpower q (Z.of_nat n) <= 1)%Q.
Proof.
  intros P H. induction n as [|n IH].
  - cbn. lra.
  - rewrite Nat2Z.inj_succ. unfold Z.succ. rewrite Qpower_plus by lra. change (q ^ 1)%Q with q. destruct IH. split; nra.
Qed.
Lemma Qpower_posn q n : (0 < q)%Q -> (0 < Qpower q (Z.of_nat n))%Q.
Proof. intros. apply Qpower_0_lt; auto. Qed.

Lemma gain2_pos p0 n0 p1 n1 : (0 < gain2 p0 n0 p1 n1)%Q.
Proof.
  unfold gain2. rewrite Qred_correct. apply Qpower_posn.
  apply Qlt_shift_div_l; [apply laplace_pos|]. rewrite Qmult_0_l. apply laplace_pos.
Qed.
Lemma gain2_gt1 p0 n0 p1 n1 : (1 < gain2 p0 n0 p1 n1)%Q <-> 0 < p1 /\ (p0 + 1) * n1 < (p1 + 1) * n0.
Proof.
  unfold gain2. rewrite Qred_correct.
  pose proof (laplace_pos p0 n0) as A. pose proof (laplace_pos p1 n1) as B.
  split.
  - intros H. destruct p1 as [|p1]; [cbn in H; lra|]. split; [lia|].
    assert (C : (laplace p0 n0 < laplace (S p1) n1)%Q).
    { apply Qnot_le_lt. intros C. assert (D : (laplace (S p1) n1 / laplace p0 n0 <= 1)%Q) by (apply Qle_shift_div_r; lra).
      apply (Qpower_le1 _ (S p1)) in D; [lra|]. apply Qlt_shift_div_l; lra. }
    apply laplace_lt in C. nia.
  - intros [P H]. apply Qpower_gt1; auto. apply Qlt_shift_div_l; auto. rewrite Qmult_1_l. apply laplace_lt. nia.
Qed.
Lemma gain2_fewer p0 n0 p1 n1 : p1 <= p0 -> (1 < gain2 p0 n0 p1 n1)%Q -> 0 < p1 /\ n1 < n0.
Proof. intros L H. apply gain2_gt1 in H. nia. Qed.

(** the scan of [best_successor]: first strict maximum above the start value *)
Lemma succ_scan_spec (g : rule -> Q) l : forall bg best,
  (best_succ_scan g bg best l = best /\ forall x, In x l -> (g x <= bg)%Q) \/
  (exists a s b, l = a ++ s :: b /\ best_succ_scan g bg best l = Some s /\ (bg < g s)%Q /\
     (forall x, In x a -> (g x < g s)%Q) /\ (forall x, In x b -> (g x <= g s)%Q)).
Proof.
  induction l as [|y l IH]; intros bg best.
  - left. split; [reflexivity|]. intros x [].
  - cbn [best_succ_scan]. destruct (Qlt_b bg (g y)) eqn:L.
    + apply Qlt_b_iff in L. right. destruct (IH (g y) (Some y)) as [[H1 H2]|(a & s & b & E & H1 & H2 & H3 & H4)].
      * exists [], y, l. repeat split; auto. intros x [].
      * exists (y :: a), s, b. subst l. repeat split; auto.
        -- eapply Qlt_trans; eauto.
        -- intros x [<-|X]; auto.
    + apply Qlt_b_false in L. destruct (IH bg best) as [[H1 H2]|(a & s & b & E & H1 & H2 & H3 & H4)].
      * left. split; auto. intros x [<-|X]; auto.
      * right. exists (y :: a), s, b. subst l. repeat split; auto.
        intros x [<-|X]; auto. eapply Qle_lt_trans; eauto.
Qed.

(** the scan of [best_rule_successor_cn] finds the same *)
Lemma scan_agree {C} (g : C -> Q) (mk : C -> rule) (G : rule -> Q) cs (Hg : forall c, In c cs -> G (mk c) = g c) :
  best_succ_scan G 1 None (map mk cs) =
  match best_scan g None cs with Some (c, v) => if Qlt_b 1 v then Some (mk c) else None | None => None end.
Proof.
  assert (K : forall l b, (forall c, In c l -> G (mk c) = g c) -> G (mk b) = g b ->
     (if Qlt_b 1 (g b) then best_succ_scan G (g b) (Some (mk b)) (map mk l) else best_succ_scan G 1 None (map mk l)) =
     match best_scan g (Some (b, g b)) l with Some (c, v) => if Qlt_b 1 v then Some (mk c) else None | None => None end).
  { induction l as [|c l IH]; intros b H Hb.
    - cbn. destruct (Qlt_b 1 (g b)); auto.
    - cbn [map best_succ_scan best_scan]. rewrite (H c) by (left; auto).
      destruct (Qlt_b 1 (g b)) eqn:B.
      + destruct (Qlt_b (g b) (g c)) eqn:BC.
        * rewrite <- (IH c); [|intros; apply H; right; auto|apply H; left; auto].
          assert (Qlt_b 1 (g c) = true) as ->; auto.
          apply Qlt_b_iff. apply Qlt_b_iff in B. apply Qlt_b_iff in BC. lra.
        * rewrite <- (IH b); [rewrite B; auto|intros; apply H; right; auto|auto].
      + destruct (Qlt_b (g b) (g c)) eqn:BC.
        * rewrite <- (IH c); [|intros; apply H; right; auto|apply H; left; auto]. destruct (Qlt_b 1 (g c)); auto.
        * rewrite <- (IH b); [rewrite B|intros; apply H; right; auto|auto].
          assert (Qlt_b 1 (g c) = false) as ->; auto.
          apply Qlt_b_false. apply Qlt_b_false in B. apply Qlt_b_false in BC. lra. }
  destruct cs as [|c cs]; [reflexivity|].
  cbn [map best_succ_scan best_scan]. rewrite (Hg c) by (left; auto).
  rewrite <- K; [|intros; apply Hg; right; auto|apply Hg; left; auto]. destruct (Qlt_b 1 (g c)); auto.
Qed.
