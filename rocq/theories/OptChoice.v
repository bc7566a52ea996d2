(** * OptChoice.v : what an optimisation pass of RIPPER puts in each slot, for the generic loop *)
From Verif Require Export Allowance.
From Coq Require Import Lqa.
Open Scope nat_scope.

(** the first of three candidates with the least cost *)
Definition cheapest3 (a b c : option rule) (da db dc : Q) (best : option rule) : Prop :=
  (best = a /\ (da <= db)%Q /\ (da <= dc)%Q) \/ (best = b /\ (db < da)%Q /\ (db <= dc)%Q) \/ (best = c /\ (dc < da)%Q /\ (dc < db)%Q).
Lemma choose_exact r a b d0 d1 d2 i new new' : choose_rule r a b d0 d1 d2 i new = Ok new' ->
  exists best, cheapest3 (Some r) a b d0 d1 d2 best /\ new' = set_nth i (if opt_in best new then Some r else best) new.
Proof.
  unfold choose_rule. intros H. binv H. destruct (nth_error _ v) as [best|] eqn:N; [|discriminate]. injection H as <-. exists best. split; auto.
  apply argmin_spec in E. destruct E as (q & Q1 & Q2).
  pose proof (Q2 0 d0 eq_refl) as [A0 B0]. pose proof (Q2 1 d1 eq_refl) as [A1 B1]. pose proof (Q2 2 d2 eq_refl) as [A2 B2].
  destruct v as [|[|[|v]]]; cbn in N, Q1; try (destruct v; discriminate); injection N as <-; injection Q1 as <-.
  - left. auto.
  - right. left. repeat split; auto.
  - right. right. repeat split; auto.
Qed.

Lemma firstn_set_nth {A} i (x : A) l : firstn i (set_nth i x l) = firstn i l.
Proof. revert i. induction l as [|a l IH]; intros [|i]; cbn; auto. f_equal. auto. Qed.
Lemma skipn_set_nth {A} i (x : A) l : skipn (S i) (set_nth i x l) = skipn (S i) l.
Proof. revert i. induction l as [|a l IH]; intros [|i]; auto. cbn [set_nth skipn]. apply (IH i). Qed.
Lemma skipn_tl {A} i (l : list A) : skipn (S i) l = tl (skipn i l).
Proof. revert i. induction l as [|a l IH]; intros [|i]; auto. cbn [skipn] in *. rewrite <- IH. destruct l; auto. Qed.
Lemma nth_firstn {A} (l : list A) i : nth_error l i = nth_error (firstn (S i) l) i.
Proof. revert i. induction l as [|a l IH]; intros [|i]; auto. cbn [nth_error firstn]. rewrite IH. auto. Qed.
Lemma nth_skipn {A} m : forall (l : list A) j, m <= j -> nth_error l j = nth_error (skipn m l) (j - m).
Proof.
  induction m as [|m IH]; intros l j H; [rewrite Nat.sub_0_r; reflexivity|].
  destruct j as [|j]; [lia|]. destruct l as [|a l]; [cbn; destruct (j - m); reflexivity|]. cbn. apply IH. lia.
Qed.
Section G.
Context {E : Type} (cs : cond -> E -> bool) (cands : rule -> list cond) (sp : nat -> list E -> list E * list E) (h : hyper)
        (met : nat -> list E -> list E -> rule -> res (option Q)) (dlf : list rule -> res Q).
(** the two alternatives for rule r in slot j, and their costs; [dl] is the cost of the ruleset as it is *)
Definition alternatives (orig : list rule) (dl : Q) (pos neg : list E) (j : nat) (r : rule) (rep rev_ : option rule) (d1 d2 : Q) : Prop :=
  exists t pg pp ng np g1 g2, sp t (grem cs (firstn j orig) pos) = (pg, pp) /\ sp (S t) (grem cs (firstn j orig) neg) = (ng, np) /\ pg <> [] /\
    ggrow cs (S (length ng)) cands pg ng None (h_min_rule_samples h) (Rule_ []) = Ok g1 /\
    prune_rule_on (met j pp np) j (i_replaced orig j (Some g1)) g1 = Ok rep /\
    ggrow cs (S (length ng)) cands pg ng None (h_min_rule_samples h) r = Ok g2 /\
    prune_rule_on (met j pp np) j (i_replaced orig j (Some g2)) g2 = Ok rev_ /\
    (if opt_neq rep r then dlf (i_replaced orig j rep) else Ok dl) = Ok d1 /\
    (if opt_neq rev_ r then dlf (i_replaced orig j rev_) else Ok dl) = Ok d2.
Definition opt_stopped (orig : list rule) (new : list (option rule)) (pos neg : list E) (m : nat) : Prop :=
  m = length orig \/ grem cs (firstn m orig) pos = [] \/
  (exists t pg pp, sp t (grem cs (firstn m orig) pos) = (pg, pp) /\ pg = []) \/
  stop_early_opt h new (length (grem cs (firstn m orig) pos)) (length (grem cs (firstn m orig) neg)) = Ok true.

Lemma gopt_exact orig dl pos0 neg0 : forall todo t i new pos neg new' t' pre,
  gopt cs cands sp h met dlf orig dl t i todo new pos neg = Ok (new', t') -> orig = pre ++ todo -> length pre = i -> length new = length orig ->
  pos = grem cs pre pos0 -> neg = grem cs pre neg0 -> skipn i new = map Some todo ->
  exists m, i <= m <= length orig /\ firstn i new' = firstn i new /\ skipn m new' = map Some (skipn m orig) /\ length new' = length orig /\
    opt_stopped orig new' pos0 neg0 m /\
    forall j r, i <= j -> j < m -> nth_error orig j = Some r -> exists rep rev_ d1 d2 best,
      alternatives orig dl pos0 neg0 j r rep rev_ d1 d2 /\ cheapest3 (Some r) rep rev_ dl d1 d2 best /\
      nth_error new' j = Some (if opt_in best (firstn j new' ++ map Some (skipn j orig)) then Some r else best).
Proof.
  induction todo as [|r rest IH]; intros t i new pos neg new' t' pre H O Li Ln Ep En N.
  { injection H as <- <-. exists (length orig). rewrite O, app_nil_r in *. rewrite Li. split; [lia|]. split; auto.
    rewrite <- Li, skipn_all. rewrite Li. split; [rewrite N; reflexivity|]. split; [congruence|]. split; [left; congruence|]. intros; lia. }
  assert (Il : i < length new) by (rewrite Ln, O, app_length; cbn; lia).
  assert (Fi : firstn i orig = pre) by (rewrite O, <- Li, firstn_app, Nat.sub_diag, firstn_all; cbn; apply app_nil_r).
  assert (Si : skipn i orig = r :: rest) by (rewrite O, <- Li, skipn_app, Nat.sub_diag, skipn_all; reflexivity).
  assert (KEEP : opt_stopped orig new pos0 neg0 i -> exists m, i <= m <= length orig /\ firstn i new = firstn i new /\ skipn m new = map Some (skipn m orig) /\ length new = length orig /\
    opt_stopped orig new pos0 neg0 m /\
    forall j r, i <= j -> j < m -> nth_error orig j = Some r -> exists rep rev_ d1 d2 best,
      alternatives orig dl pos0 neg0 j r rep rev_ d1 d2 /\ cheapest3 (Some r) rep rev_ dl d1 d2 best /\
      nth_error new j = Some (if opt_in best (firstn j new ++ map Some (skipn j orig)) then Some r else best)).
  { intros ST. exists i. split; [lia|]. split; auto. split; [rewrite Si; auto|]. split; auto. split; auto. intros; lia. }
  cbn [gopt] in H. destruct (sp t pos) as [pg pp] eqn:S1. destruct (sp (S t) neg) as [ng np] eqn:S2.
  destruct (length pg =? 0) eqn:Z0.
  { injection H as <- <-. apply KEEP. right. right. left. exists t, pg, pp. rewrite Fi, <- Ep. split; auto. apply Nat.eqb_eq in Z0. destruct pg; [auto|discriminate]. }
  apply Nat.eqb_neq in Z0.
  binv H. destruct v.
  { injection H as <- <-. apply KEEP. right. right. right. rewrite Fi, <- Ep, <- En. auto. }
  clear E0 KEEP.
  binv H. rename v into g1, E0 into G1. binv H. rename v into p1, E0 into P1.
  binv H. rename v into g2, E0 into G2. binv H. rename v into p2, E0 into P2.
  binv H. rename E0 into D1. rename v into d1. binv H. rename E0 into D2. rename v into d2. binv H. rename v into new1, E0 into CH.
  apply choose_exact in CH. destruct CH as (best & CH & EN). set (o := if opt_in best new then Some r else best) in *.
  assert (NEW : new = firstn i new ++ map Some (skipn i orig)) by (rewrite Si, <- N; symmetry; apply firstn_skipn).
  assert (F1 : firstn i new1 = firstn i new).
  { subst new1. apply firstn_set_nth. }
  assert (S1' : skipn (S i) new1 = map Some rest).
  { subst new1. rewrite skipn_set_nth, skipn_tl, N. reflexivity. }
  assert (NI : nth_error new1 i = Some o) by (subst new1; apply set_nth_same; auto).
  assert (Ln1 : length new1 = length orig) by (subst new1; rewrite set_nth_length; auto).
  assert (ALT : alternatives orig dl pos0 neg0 i r p1 p2 d1 d2).
  { exists t, pg, pp, ng, np, g1, g2. rewrite Fi, <- Ep, <- En. repeat split; auto. intros C; subst pg; auto. }
  assert (Si' : skipn (S i) orig = rest).
  { rewrite skipn_tl, Si. reflexivity. }
  assert (Fi' : firstn (S i) orig = pre ++ [r]).
  { rewrite O, <- Li, firstn_app. replace (S (length pre) - length pre) with 1 by lia. rewrite firstn_all2 by lia. reflexivity. }
  assert (LAST : forall new2, firstn (S i) new2 = firstn (S i) new1 -> nth_error orig i = Some r -> exists rep rev_ d1 d2 best,
      alternatives orig dl pos0 neg0 i r rep rev_ d1 d2 /\ cheapest3 (Some r) rep rev_ dl d1 d2 best /\
      nth_error new2 i = Some (if opt_in best (firstn i new2 ++ map Some (skipn i orig)) then Some r else best)).
  { intros new2 F2 _. exists p1, p2, d1, d2, best. split; auto. split; auto.
    assert (X : firstn i new2 = firstn i new). { rewrite <- F1. apply (f_equal (firstn i)) in F2. rewrite !firstn_firstn in F2. replace (Nat.min i (S i)) with i in F2 by lia. auto. }
    rewrite X, <- NEW. fold o. rewrite <- NI. 
    rewrite (nth_firstn new2), (nth_firstn new1), F2. auto. }
  assert (Ni : nth_error orig i = Some r). { rewrite O, nth_error_app2, <- Li, Nat.sub_diag by lia. auto. }
  destruct (length (gdrop cs r pos) =? 0) eqn:Z1.
  - injection H as <- <-. exists (S i). split; [rewrite O, app_length; cbn; lia|]. split; auto. split; [rewrite Si'; auto|]. split; auto. split.
    + right. left. rewrite Fi', <- gdrop_rem, <- Ep. apply Nat.eqb_eq in Z1. destruct (gdrop cs r pos); [auto|discriminate].
    + intros j r0 J1 J2 J3. assert (j = i) by lia. subst j. rewrite Ni in J3. injection J3 as <-. apply LAST; auto.
  - destruct (IH _ _ _ _ _ _ _ (pre ++ [r]) H) as (m & M1 & M2 & M3 & M4 & M5 & M6).
    + rewrite <- app_assoc. exact O.
    + rewrite app_length. cbn. lia.
    + auto.
    + rewrite Ep. apply gdrop_rem.
    + rewrite En. apply gdrop_rem.
    + auto.
    + exists m. split; [lia|]. split.
      { rewrite <- F1. apply (f_equal (firstn i)) in M2. rewrite !firstn_firstn in M2. replace (Nat.min i (S i)) with i in M2 by lia. auto. }
      split; auto. split; auto. split; auto. intros j r0 J1 J2 J3. destruct (Nat.eq_dec j i) as [->|NE].
      * rewrite Ni in J3. injection J3 as <-. apply LAST; auto.
      * apply M6; auto. lia.
Qed.
Lemma gpass_exact orig dl pos neg t new t' rs : gopt cs cands sp h met dlf orig dl t 0 orig (map Some orig) pos neg = Ok (new, t') -> force_rules new = Ok rs ->
  length rs = length orig /\ exists m, m <= length orig /\ skipn m rs = skipn m orig /\ opt_stopped orig (map Some rs) pos neg m /\
  forall j r r', j < m -> nth_error orig j = Some r -> nth_error rs j = Some r' -> exists rep rev_ d1 d2 best,
    alternatives orig dl pos neg j r rep rev_ d1 d2 /\ cheapest3 (Some r) rep rev_ dl d1 d2 best /\
    Some r' = (if opt_in best (map Some (firstn j rs ++ skipn j orig)) then Some r else best).
Proof.
  intros H F. apply force_run in F. subst new.
  destruct (gopt_exact orig dl pos neg orig t 0 (map Some orig) pos neg _ _ [] H) as (m & M1 & _ & M3 & M4 & M5 & M6); auto.
  - rewrite map_length; auto.
  - symmetry. apply grem_nil.
  - symmetry. apply grem_nil.
  - rewrite !map_length in M4. split; auto. exists m. split; [lia|]. split.
    + rewrite skipn_map in M3. apply (f_equal (map (fun o => match o with Some r => r | None => Rule_ [] end))) in M3. rewrite !map_map in M3. cbn in M3. rewrite !map_id in M3. auto.
    + split; auto. intros j r r' J1 J2 J3. destruct (M6 j r (Nat.le_0_l _) J1 J2) as (rep & rv & d1 & d2 & best & A & B & C). exists rep, rv, d1, d2, best. split; auto. split; auto.
      rewrite nth_error_map, J3 in C. cbn [option_map] in C. rewrite map_app, <- firstn_map. congruence.
Qed.
(** only a strict saving changes a rule, and never into one already there *)
Lemma gpass_saving orig dl pos neg t new t' rs : gopt cs cands sp h met dlf orig dl t 0 orig (map Some orig) pos neg = Ok (new, t') -> force_rules new = Ok rs ->
  forall j r r', nth_error orig j = Some r -> nth_error rs j = Some r' -> r' = r \/
    (existsb (fun s => rule_eqb s r') (firstn j rs ++ skipn j orig) = false /\
     exists d, dlf (firstn j orig ++ [r'] ++ skipn (S j) orig) = Ok d /\ (d < dl)%Q).
Proof.
  intros H F j r r' J1 J2. destruct (gpass_exact _ _ _ _ _ _ _ _ H F) as (L & m & M1 & M2 & _ & M3).
  destruct (Nat.lt_ge_cases j m) as [J|J].
  - destruct (M3 j r r' J J1 J2) as (rep & rv & d1 & d2 & best & (t0 & pg & pp & ng & np & g1 & g2 & _ & _ & _ & _ & _ & _ & _ & D1 & D2) & B & C).
    destruct (opt_in best _) eqn:OI; [left; congruence|]. subst best.
    assert (EX : existsb (fun s => rule_eqb s r') (firstn j rs ++ skipn j orig) = false).
    { unfold opt_in in OI. rewrite <- OI. clear. induction (firstn j rs ++ skipn j orig) as [|a l IH]; cbn; auto. rewrite IH. auto. }
    destruct B as [[B _]|[[B [B1 B2]]|[B [B1 B2]]]].
    + left. congruence.
    + right. split; auto. exists d1. subst rep. destruct (opt_neq (Some r') r); [|injection D1 as <-; lra]. auto.
    + right. split; auto. exists d2. subst rv. destruct (opt_neq (Some r') r); [|injection D2 as <-; lra]. auto.
  - left. assert (X : forall (l : list rule), m <= j -> nth_error l j = nth_error (skipn m l) (j - m)).
    { intros l Hm. apply nth_skipn. auto. }
    rewrite X in J1, J2 by auto. rewrite M2 in J2. congruence.
Qed.
End G.
