(** * Allowance.v : the description-length bookkeeping of RIPPER's growing stage, for the generic loop *)
From Verif Require Export RipperStages.
From Coq Require Import Lqa Qpower.
Open Scope nat_scope.

Lemma Ok_inj {A} (a b : A) : Ok a = Ok b -> a = b.
Proof. congruence. Qed.
Lemma theory_bits_pos k n q : theory_bits k n = Ok q -> (0 < q)%Q.
Proof.
  unfold theory_bits. destruct (n =? 0); [discriminate|]. destruct (_ =? n); [discriminate|]. destruct (n <? _); [discriminate|]. intros H. apply Ok_inj in H; subst.
  rewrite Qred_correct. destruct (Qle_bool 4 _) eqn:L; [apply Qle_bool_iff in L; lra|reflexivity].
Qed.
Lemma rs_theory_pos n rs : forall q, rs_theory n rs = Ok q -> (0 < q)%Q.
Proof.
  induction rs as [|r rs IH]; intros q H; cbn [rs_theory] in H; [apply Ok_inj in H; subst; reflexivity|]. binv H. rename E into A. binv H. rename E into B. apply Ok_inj in H; subst.
  rewrite Qred_correct. apply Qmult_lt_0_compat; [eapply theory_bits_pos; eauto|auto].
Qed.
Lemma rs_theory_app n u v a b : rs_theory n u = Ok a -> rs_theory n v = Ok b -> exists q, rs_theory n (u ++ v) = Ok q /\ (q == a * b)%Q.
Proof.
  revert a. induction u as [|r u IH]; intros a A B; cbn [rs_theory app] in *.
  - apply Ok_inj in A; subst. exists b. split; auto. ring.
  - binv A. rename E into A1. binv A. rename E into A2. apply Ok_inj in A; subst. destruct (IH _ A2 B) as (q & Q1 & Q2). rewrite A1, Q1. cbn [bind].
    eexists. split; [reflexivity|]. rewrite !Qred_correct, Q2. ring.
Qed.
Lemma rs_theory_app_inv n u v q : rs_theory n (u ++ v) = Ok q -> exists a b, rs_theory n u = Ok a /\ rs_theory n v = Ok b /\ (q == a * b)%Q.
Proof.
  revert q. induction u as [|r u IH]; intros q H; cbn [rs_theory app] in *.
  - exists 1%Q, q. repeat split; auto. ring.
  - binv H. rename E into A1. binv H. rename E into A2. apply Ok_inj in H; subst. destruct (IH _ A2) as (a & b & Ha & Hb & Q). rewrite A1, Ha. cbn [bind].
    eexists _, b. split; [reflexivity|]. split; auto. rewrite !Qred_correct, Q. ring.
Qed.
Lemma exception_bits_pos N p fp fn q : exception_bits N p fp fn = Ok q -> (0 < q)%Q.
Proof.
  unfold exception_bits. destruct (_ || _) eqn:B; [discriminate|]. intros H. apply Ok_inj in H; subst. apply Bool.orb_false_elim in B. destruct B as [B1 B2].
  apply Z.leb_gt in B1, B2. change 0%Q with (inject_Z 0). rewrite <- Zlt_Qlt. nia.
Qed.

(** w is a non-empty proper prefix of u / a non-empty prefix of u *)
Definition earlier (w u : list rule) : Prop := w <> [] /\ exists v, v <> [] /\ u = w ++ v.
Definition upto (w u : list rule) : Prop := w <> [] /\ exists v, u = w ++ v.
Lemma upto_earlier w u : upto w u <-> earlier w u \/ (w = u /\ u <> []).
Proof.
  split.
  - intros [A (v & ->)]. destruct v as [|x v]; [right; rewrite app_nil_r; auto|left]. split; auto. exists (x :: v). split; auto. discriminate.
  - intros [[A (v & _ & ->)]|[-> A]]; split; eauto. exists []. rewrite app_nil_r. auto.
Qed.
Lemma earlier_snoc w u r : earlier w (u ++ [r]) <-> upto w u.
Proof.
  split.
  - intros [A (v & V & E)]. split; auto. destruct v as [|x v] using rev_ind; [congruence|]. rewrite app_assoc in E. apply app_inj_tail in E. destruct E as [-> _]. eauto.
  - intros [A (v & ->)]. split; auto. exists (v ++ [r]). split; [destruct v; discriminate|]. rewrite app_assoc. auto.
Qed.

Section A.
Context (exc : list rule -> res Q) (n : nat) (init : list rule) (XP : forall l q, exc l = Ok q -> (0 < q)%Q).

(** what the loop computes for the rules added so far *)
Definition pdl (u : list rule) (q : Q) : Prop := exists a b, rs_theory n u = Ok a /\ exc (init ++ u) = Ok b /\ (q == a * b)%Q.
Lemma pdl_pos u q : pdl u q -> (0 < q)%Q.
Proof. intros (a & b & A & B & ->). apply Qmult_lt_0_compat; [eapply rs_theory_pos; eauto|eauto]. Qed.
Lemma pdl_eq u q q' : pdl u q -> pdl u q' -> (q == q')%Q.
Proof. intros (a & b & A & B & ->) (a' & b' & A' & B' & ->). rewrite A in A'. rewrite B in B'. injection A' as <-. injection B' as <-. reflexivity. Qed.
Definition least (m : Q) (u : list rule) : Prop := (exists w, upto w u /\ pdl w m) /\ forall w, upto w u -> exists q, pdl w q /\ (m <= q)%Q.
Definition inv (a : list rule) (st : option (Q * Q)) (diff : Q) : Prop :=
  (a = [] /\ st = None /\ diff = 1%Q) \/
  exists th m u r, a = u ++ [r] /\ st = Some (th, m) /\ (exists t, rs_theory n a = Ok t /\ (th == t)%Q) /\ least m a /\
    ((u = [] /\ diff = 1%Q) \/ exists m' d, least m' u /\ pdl a d /\ (diff == d / m')%Q).
Definition over (A : Z) (u : list rule) : Prop := exists w d m, earlier w u /\ pdl u d /\ pdl w m /\ (Qpower 4 A * m < d)%Q.

Lemma pow4_pos A : (0 < Qpower 4 A)%Q.
Proof. apply Qpower_0_lt. reflexivity. Qed.
Lemma pow4_ge A : (0 <= A)%Z -> (1 <= Qpower 4 A)%Q.
Proof. intros H. apply Qpower_1_le; [discriminate|auto]. Qed.
Lemma inv_over a st diff A : inv a st diff -> (0 <= A)%Z -> (within_allowance diff A = false <-> over A a).
Proof.
  intros I H. unfold within_allowance. pose proof (pow4_ge A H) as P1. pose proof (pow4_pos A) as P0.
  assert (ONE : Qle_bool 1 (Qpower 4 A) = true) by (apply Qle_bool_iff; auto).
  destruct I as [(-> & _ & ->)|(th & m & u & r & -> & _ & _ & _ & [[-> ->]|(m' & d & L & D & Ed)])].
  - rewrite ONE. split; [discriminate|]. intros (w & d & m & [W (v & V & E)] & _). symmetry in E. apply app_eq_nil in E. tauto.
  - rewrite ONE. split; [discriminate|]. intros (w & d & m0 & W & _). apply earlier_snoc in W. destruct W as [W (v & E)]. symmetry in E. apply app_eq_nil in E. tauto.
  - pose proof (pdl_pos _ _ D) as D0. destruct L as [(w0 & U0 & M0) ML]. pose proof (pdl_pos _ _ M0) as M1.
    assert (EQ : Qle_bool diff (Qpower 4 A) = false <-> (Qpower 4 A * m' < d)%Q).
    { rewrite <- Bool.not_true_iff_false, Qle_bool_iff. split.
      - intros N. apply Qnot_le_lt. intros C. apply N. rewrite Ed. apply Qle_shift_div_r; auto.
      - intros C N. rewrite Ed in N. apply (Qmult_le_compat_r _ _ m') in N; [|lra]. setoid_replace (d / m' * m')%Q with d in N by (field; lra). lra. }
    rewrite EQ. split.
    + intros C. exists w0, d, m'. split; [apply earlier_snoc; auto|]. auto.
    + intros (w & d' & q & W & D' & Q & C). apply earlier_snoc in W. destruct (ML w W) as (q' & Q1 & Q2). rewrite (pdl_eq _ _ _ Q1 Q) in Q2. rewrite (pdl_eq _ _ _ D' D) in C.
      apply Qle_lt_trans with (Qpower 4 A * q)%Q; auto. rewrite !(Qmult_comm (Qpower 4 A)). apply Qmult_le_compat_r; lra.
Qed.
Lemma inv_update a st diff r st' diff' : inv a st diff -> dl_update exc n r (init ++ a ++ [r]) st diff = Ok (st', diff') -> inv (a ++ [r]) st' diff'.
Proof.
  intros I H. unfold dl_update in H. binv H. rename v into rd, E into RD.
  assert (RT : rs_theory n [r] = Ok (Qred (rd * 1))) by (cbn [rs_theory]; rewrite RD; reflexivity).
  destruct I as [(-> & -> & ->)|(th & m & u & s & EA & -> & (t & T1 & T2) & L & _)].
  - binv H. rename v into x, E into X. apply Ok_inj in H; apply pair_equal_spec in H; destruct H as [<- <-]. right. exists rd, (Qred (rd * x)), [], r. split; auto. split; auto. cbn [app] in *.
    split; [exists (Qred (rd * 1)); split; auto; rewrite Qred_correct; ring|]. split; [|auto].
    assert (P : pdl [r] (Qred (rd * x))). { exists (Qred (rd * 1)), x. repeat split; auto. rewrite !Qred_correct. ring. }
    split; [exists [r]; split; auto; split; [discriminate|exists []; auto]|]. intros w [W (v & E)]. exists (Qred (rd * x)). split; [|lra].
    destruct w as [|z w]; [congruence|]. injection E as -> E. symmetry in E. apply app_eq_nil in E. destruct E as [-> ->]. auto.
  - binv H. rename v into x, E into X. apply Ok_inj in H; apply pair_equal_spec in H; destruct H as [<- <-]. destruct (rs_theory_app n a [r] _ _ T1 RT) as (t' & T1' & T2').
    rewrite Qred_correct in T2'.
    assert (P : pdl (a ++ [r]) (Qred (Qred (th * rd) * x))). { exists t', x. repeat split; auto. rewrite !Qred_correct, T2', T2. ring. }
    right. exists (Qred (th * rd)), (if Qlt_b (Qred (Qred (th * rd) * x)) m then Qred (Qred (th * rd) * x) else m), a, r. split; auto. split; auto.
    split; [exists t'; split; auto; rewrite Qred_correct, T2', T2; ring|]. split.
    + destruct L as [(w0 & U0 & M0) ML]. set (d := Qred (Qred (th * rd) * x)) in *. split.
      * destruct (Qlt_b d m); [exists (a ++ [r]); split; auto; split; [destruct a; discriminate|exists []; rewrite app_nil_r; auto]|].
        exists w0. split; auto. apply upto_earlier. left. apply earlier_snoc. auto.
      * intros w W. apply upto_earlier in W. destruct W as [W|[-> _]].
        -- apply earlier_snoc in W. destruct (ML w W) as (q & Q1 & Q2). exists q. split; auto. destruct (Qlt_b d m) eqn:LT; auto. apply Qlt_b_iff in LT. lra.
        -- exists d. split; auto. destruct (Qlt_b d m) eqn:LT; [lra|]. apply Qnot_lt_le. intros C. apply Qlt_b_iff in C. congruence.
    + right. exists m, (Qred (Qred (th * rd) * x)). split; auto. split; auto. rewrite Qred_correct. reflexivity.
Qed.

Lemma inv_defined a st diff : inv a st diff -> forall w, upto w a -> exists q, pdl w q.
Proof.
  intros [(-> & _)|(th & m & u & r & _ & _ & _ & [_ L] & _)] w W.
  - destruct W as [W (v & E)]. symmetry in E. apply app_eq_nil in E. tauto.
  - destruct (L w W) as (q & Q & _). eauto.
Qed.

Section G.
Context {E : Type} (cs : cond -> E -> bool) (cands : rule -> list cond) (sp : nat -> list E -> list E * list E) (h : hyper)
        (prune : list E -> list E -> rule -> res (option rule)).
(** why the loop ended, other than the description length *)
Definition finished (pos neg : list E) (new : list rule) : Prop :=
  grem cs new pos = [] \/
  stop_early (length (init ++ new)) (count_conds (init ++ new)) (length (grem cs new pos)) (length (grem cs new neg))
    (h_max_rules h) (h_min_ruleset_samples h) (h_max_total_conds h) = true \/
  exists t pg pp ng np, sp t (grem cs new pos) = (pg, pp) /\ sp (S t) (grem cs new neg) = (ng, np) /\
    (pg = [] \/ exists g, ggrow cs (S (length ng)) cands pg ng (h_max_rule_conds h) (h_min_rule_samples h) (Rule_ []) = Ok g /\ conds g = []).
Lemma grip_allowance_aux fuel pos neg : (0 <= h_dl h)%Z -> forall t a st diff rs t',
  inv a st diff -> (forall u r v, a = u ++ r :: v -> ~ over (h_dl h) u) ->
  grip cs cands sp h prune exc n fuel t (init ++ a) st diff (grem cs a pos) (grem cs a neg) = Ok (rs, t') ->
  exists new, rs = init ++ new /\ (forall u r v, new = u ++ r :: v -> ~ over (h_dl h) u) /\ (over (h_dl h) new \/ finished pos neg new) /\ (forall w, upto w new -> exists q, pdl w q).
Proof.
  intros HA. induction fuel as [|k IH]; intros t a st diff rs t' I T H; [discriminate|]. pose proof (inv_defined _ _ _ I) as ID. cbn [grip] in H.
  destruct (_ || _) eqn:B.
  { injection H as <- <-. exists a. split; auto. split; auto. split; auto. apply Bool.orb_true_iff in B. destruct B as [B|B].
    - right. left. apply Nat.eqb_eq in B. destruct (grem cs a pos); [auto|discriminate].
    - left. apply (inv_over a st diff); auto. apply Bool.negb_true_iff. auto. }
  apply Bool.orb_false_elim in B. destruct B as [B0 B1].
  destruct (stop_early _ _ _ _ _ _ _) eqn:SE.
  { injection H as <- <-. exists a. split; auto. split; auto. split; auto. right. right. left. auto. }
  destruct (sp t (grem cs a pos)) as [pg pp] eqn:S1. destruct (sp (S t) (grem cs a neg)) as [ng np] eqn:S2.
  destruct (length pg =? 0) eqn:Z0.
  { injection H as <- <-. exists a. split; auto. split; auto. split; auto. right. right. right. exists t, pg, pp, ng, np. repeat split; auto. left. apply Nat.eqb_eq in Z0. destruct pg; [auto|discriminate]. }
  binv H. rename v into g. rename E0 into G. destruct (rule_isempty g) eqn:GE.
  { injection H as <- <-. exists a. split; auto. split; auto. split; auto. right. right. right. exists t, pg, pp, ng, np. repeat split; auto. right. exists g. split; auto.
    unfold rule_isempty in GE. destruct (conds g); [auto|discriminate]. }
  binv H. rename E0 into PR. destruct v as [s|]; [|discriminate]. binv H. rename E0 into U. destruct v as [st' diff'].
  rewrite !gdrop_rem in H. unfold rs_add in H, U. rewrite <- app_assoc in H, U.
  refine (IH _ _ _ _ _ _ (inv_update _ _ _ _ _ _ I U) _ H).
  intros u r v Eq. destruct v as [|x v] using rev_ind.
  - apply app_inj_tail in Eq. destruct Eq as [<- _]. intros O. apply (inv_over a st diff) in O; auto. apply Bool.negb_false_iff in B1. congruence.
  - rewrite app_comm_cons, app_assoc in Eq. apply app_inj_tail in Eq. destruct Eq as [Eq _]. eapply T; eauto.
Qed.
Lemma grip_allowance fuel pos neg t rs t' : (0 <= h_dl h)%Z ->
  grip cs cands sp h prune exc n fuel t init None 1 pos neg = Ok (rs, t') ->
  exists new, rs = init ++ new /\ (forall u r v, new = u ++ r :: v -> ~ over (h_dl h) u) /\ (over (h_dl h) new \/ finished pos neg new) /\ (forall w, upto w new -> exists q, pdl w q).
Proof.
  intros HA H. eapply (grip_allowance_aux fuel pos neg HA t [] None 1); [left; auto| |rewrite app_nil_r, !grem_nil; exact H].
  intros [|y0 ys] r v C; discriminate.
Qed.
Lemma grip_onesided fuel pos neg t rs t' : (forall t l, fst (sp t l) <> [] -> l <> []) -> pos = [] \/ neg = [] ->
  grip cs cands sp h prune exc n fuel t init None 1 pos neg = Ok (rs, t') -> rs = init.
Proof.
  intros SP C H. destruct fuel as [|k]; [discriminate|]. cbn [grip] in H. destruct (_ || _) eqn:B; [congruence|].
  destruct (stop_early _ _ _ _ _ _ _); [congruence|]. apply Bool.orb_false_elim in B. destruct B as [B _]. apply Nat.eqb_neq in B.
  destruct C as [->| ->]; [cbn in B; congruence|].
  destruct (sp t pos) as [pg pp]. pose proof (SP (S t) []) as S2. destruct (sp (S t) []) as [ng np]. cbn [fst] in S2.
  assert (ng = []) as -> by (destruct ng as [|x ng]; auto; exfalso; apply S2; [discriminate|auto]).
  destruct (length pg =? 0); [congruence|]. cbn [ggrow length gcov filter Nat.eqb bind] in H. cbn [rule_isempty conds Rule_] in H. congruence.
Qed.
Lemma grip_negative fuel pos neg t rs t' : (h_dl h < 0)%Z ->
  grip cs cands sp h prune exc n fuel t init None 1 pos neg = Ok (rs, t') -> rs = init.
Proof.
  intros HA. destruct fuel as [|k]; [discriminate|]. cbn [grip].
  assert (W : within_allowance 1 (h_dl h) = false).
  { unfold within_allowance. apply Bool.not_true_iff_false. rewrite Qle_bool_iff. intros C.
    pose proof (Qpower_1_lt 4 (- h_dl h) eq_refl ltac:(lia)) as P1. rewrite Qpower_opp in P1.
    apply (Qmult_lt_r _ _ (Qpower 4 (h_dl h))) in P1; [|apply pow4_pos].
    setoid_replace (/ Qpower 4 (h_dl h) * Qpower 4 (h_dl h))%Q with 1%Q in P1 by (field; pose proof (pow4_pos (h_dl h)); lra). lra. }
  rewrite W. rewrite Bool.orb_true_r. intros H. injection H as <- <-. auto.
Qed.
End G.

(** in terms of the description length of the whole ruleset *)
Lemma pdl_total c u q : rs_theory n init = Ok c -> pdl u q -> exists d, total_bits exc n (init ++ u) = Ok d /\ (d == c * q)%Q.
Proof.
  intros C (a & b & A & B & Q). destruct (rs_theory_app _ _ _ _ _ C A) as (t & T1 & T2). unfold total_bits. rewrite T1. cbn [bind]. rewrite B. cbn [bind].
  eexists. split; [reflexivity|]. rewrite Qred_correct, T2, Q. ring.
Qed.
Lemma total_pdl c u d : rs_theory n init = Ok c -> total_bits exc n (init ++ u) = Ok d -> exists q, pdl u q /\ (d == c * q)%Q.
Proof.
  intros C H. unfold total_bits in H. binv H. rename E into T. binv H. rename E into X. apply Ok_inj in H; subst. destruct (rs_theory_app_inv _ _ _ _ T) as (a & b & A & B & Q).
  rewrite C in A. apply Ok_inj in A; subst. exists (b * v0)%Q. split; [exists b, v0; repeat split; auto; reflexivity|]. rewrite Qred_correct, Q. ring.
Qed.
Lemma over_total A u c : rs_theory n init = Ok c ->
  (over A u <-> exists w d m, earlier w u /\ total_bits exc n (init ++ u) = Ok d /\ total_bits exc n (init ++ w) = Ok m /\ (Qpower 4 A * m < d)%Q).
Proof.
  intros C. pose proof (rs_theory_pos _ _ _ C) as C0. split.
  - intros (w & d & m & W & D & M & L). destruct (pdl_total _ _ _ C D) as (d' & D1 & D2). destruct (pdl_total _ _ _ C M) as (m' & M1 & M2).
    exists w, d', m'. repeat split; auto; try apply W. rewrite D2, M2. setoid_replace (Qpower 4 A * (c * m))%Q with (c * (Qpower 4 A * m))%Q by ring.
    apply Qmult_lt_l; auto.
  - intros (w & d & m & W & D & M & L). destruct (total_pdl _ _ _ C D) as (d' & D1 & D2). destruct (total_pdl _ _ _ C M) as (m' & M1 & M2).
    exists w, d', m'. repeat split; auto; try apply W. rewrite D2, M2 in L. setoid_replace (Qpower 4 A * (c * m'))%Q with (c * (Qpower 4 A * m'))%Q in L by ring.
    apply Qmult_lt_l in L; auto.
Qed.
End A.
