(** * RipperFacts.v : the stages of RIPPER, both engines *)
From Verif Require Export Hom IrepTrain.
From Verif Require Export Ripper.
From Coq Require Import Lqa.
Open Scope nat_scope.

(** ** Description lengths *)
Lemma theory_bits_ok k n : Nat.max k 1 < n -> exists q, theory_bits k n = Ok q.
Proof.
  intros H. unfold theory_bits. destruct (n =? 0) eqn:A; [apply Nat.eqb_eq in A; lia|].
  destruct (Nat.max k 1 =? n) eqn:B; [apply Nat.eqb_eq in B; lia|].
  destruct (n <? Nat.max k 1) eqn:C; [apply Nat.ltb_lt in C; lia|]. eauto.
Qed.
Lemma rs_theory_ok n rs : (forall r, In r rs -> Nat.max (length (conds r)) 1 < n) -> exists q, rs_theory n rs = Ok q.
Proof.
  induction rs as [|r rs IH]; intros H; [eexists; reflexivity|]. cbn [rs_theory].
  destruct (theory_bits_ok _ _ (H r (or_introl eq_refl))) as (a & ->). cbn [bind].
  destruct IH as (b & ->); [intros; apply H; right; auto|]. cbn [bind]. eauto.
Qed.
Lemma total_bits_ok exc n rs : (forall r, In r rs -> Nat.max (length (conds r)) 1 < n) -> isOk (exc rs) -> exists q, total_bits exc n rs = Ok q.
Proof.
  intros H [x X]. unfold total_bits. destruct (rs_theory_ok n rs H) as (a & ->). cbn [bind]. rewrite X. cbn [bind]. eauto.
Qed.
Lemma subset_dls_ok exc n rs : (forall r, In r rs -> Nat.max (length (conds r)) 1 < n) ->
  forall pre th, (forall k, isOk (exc (pre ++ firstn (S k) rs))) -> exists l, subset_dls exc n pre th rs = Ok l /\ length l = length rs.
Proof.
  induction rs as [|r rs IH]; intros H pre th X; [eexists; split; reflexivity|]. cbn [subset_dls].
  destruct (theory_bits_ok _ _ (H r (or_introl eq_refl))) as (a & ->). cbn [bind].
  pose proof (X 0) as X0. cbn [firstn] in X0. destruct X0 as [x ->]. cbn [bind].
  destruct (IH ltac:(intros; apply H; right; auto) (pre ++ [r]) (Qred (th * a))) as (l & -> & L).
  - intros k. specialize (X (S k)). cbn [firstn] in X. rewrite <- app_assoc. exact X.
  - cbn [bind]. eexists. split; [reflexivity|]. cbn. congruence.
Qed.
Lemma keep_rules_sublist rs : forall prev dls, sublist (keep_rules prev rs dls) rs.
Proof.
  induction rs as [|r rs IH]; intros prev dls; [destruct dls; constructor|]. destruct dls as [|d ds].
  - cbn [keep_rules]. clear. induction (r :: rs); constructor; auto.
  - cbn [keep_rules]. destruct prev as [p|]; [destruct (Qle_bool d p)|]; cbn [app]; constructor; auto.
Qed.
Lemma sublist_Forall {A} (P : A -> Prop) l l' : sublist l' l -> (forall a, In a l -> P a) -> forall a, In a l' -> P a.
Proof.
  induction 1; intros F x I; auto.
  - destruct I as [->|I]; [apply F; left; auto|]. apply IHsublist; auto. intros; apply F; right; auto.
  - apply IHsublist; auto. intros; apply F; right; auto.
Qed.
Lemma best_subset_ok exc n rs : (forall r, In r rs -> Nat.max (length (conds r)) 1 < n) ->
  (forall l, incl l rs -> isOk (exc l)) -> exists k q, best_subset exc n rs = Ok (k, q).
Proof.
  intros H X. unfold best_subset. destruct (subset_dls_ok exc n rs H [] 1%Q) as (dls & -> & _).
  - intros k. apply X. cbn [app]. intros a I. rewrite <- (firstn_skipn (S k) rs). apply in_or_app; auto.
  - cbn [bind]. pose proof (keep_rules_sublist rs None dls) as S.
    destruct (total_bits_ok exc n (keep_rules None rs dls)) as (q & Q).
    + exact (sublist_Forall (fun r => Nat.max (length (conds r)) 1 < n) _ _ S H).
    + apply X. exact (sublist_Forall (fun r => In r rs) _ _ S (fun a I => I)).
    + rewrite Q. cbn [bind]. eauto.
Qed.
Lemma best_subset_run exc n rs k q : best_subset exc n rs = Ok (k, q) ->
  sublist k rs /\ total_bits exc n k = Ok q /\ (forall r t, rs = r :: t -> exists t', k = r :: t').
Proof.
  unfold best_subset. intros H. binv H. rename E into E0. binv H. injection H as <- <-. split; [apply keep_rules_sublist|]. split; auto.
  intros r t ->. cbn [subset_dls] in E0. binv E0. rename E1 into E2. binv E0. rename E1 into E3. binv E0. injection E0 as <-.
  cbn [keep_rules app]. eauto.
Qed.

(** ** The generic stages *)
Section G.
Context {E : Type} (cs : cond -> E -> bool) (D D' : list E -> Prop) (cands : rule -> list cond)
        (sp : nat -> list E -> list E * list E) (h : hyper)
        (prune : list E -> list E -> rule -> res (option rule)) (exc : list rule -> res Q) (n : nat).

Fixpoint grip (fuel t : nat) (rs : list rule) (st : option (Q * Q)) (diff : Q) (pos neg : list E) : res (list rule * nat) :=
  match fuel with
  | O => Err OutOfFuel
  | S k =>
      if (length pos =? 0) || negb (within_allowance diff (h_dl h)) then Ok (rs, t)
      else if stop_early (length rs) (count_conds rs) (length pos) (length neg)
                (h_max_rules h) (h_min_ruleset_samples h) (h_max_total_conds h) then Ok (rs, t)
      else
        let '(pg, pp) := sp t pos in
        let '(ng, np) := sp (S t) neg in
        if length pg =? 0 then Ok (rs, t + 2)
        else
          grown <- ggrow cs (S (length ng)) cands pg ng (h_max_rule_conds h) (h_min_rule_samples h) (Rule_ []) ;;
          if rule_isempty grown then Ok (rs, t + 2)
          else
            pruned <- prune pp np grown ;;
            match pruned with
            | None => Err AttributeError
            | Some pruned =>
                let rs' := rs_add pruned rs in
                '(st', diff') <- dl_update exc n pruned rs' st diff ;;
                grip k (t + 2) rs' st' diff' (gdrop cs pruned pos) (gdrop cs pruned neg)
            end
  end.

Context (met : nat -> list E -> list E -> rule -> res (option Q)) (dlf : list rule -> res Q).
Fixpoint gopt (orig : list rule) (dl : Q) (t i : nat) (todo : list rule) (new : list (option rule)) (pos neg : list E)
  : res (list (option rule) * nat) :=
  match todo with
  | [] => Ok (new, t)
  | r :: rest =>
      let '(pg, pp) := sp t pos in
      let '(ng, np) := sp (S t) neg in
      if length pg =? 0 then Ok (new, t + 2)
      else
        stop <- stop_early_opt h new (length pos) (length neg) ;;
        if stop : bool then Ok (new, t + 2)
        else
          g_rep <- ggrow cs (S (length ng)) cands pg ng None (h_min_rule_samples h) (Rule_ []) ;;
          pr_rep <- prune_rule_on (met i pp np) i (i_replaced orig i (Some g_rep)) g_rep ;;
          g_rev <- ggrow cs (S (length ng)) cands pg ng None (h_min_rule_samples h) r ;;
          pr_rev <- prune_rule_on (met i pp np) i (i_replaced orig i (Some g_rev)) g_rev ;;
          rep_dl <- (if opt_neq pr_rep r then dlf (i_replaced orig i pr_rep) else Ok dl) ;;
          rev_dl <- (if opt_neq pr_rev r then dlf (i_replaced orig i pr_rev) else Ok dl) ;;
          new' <- choose_rule r pr_rep pr_rev dl rep_dl rev_dl i new ;;
          let pos' := gdrop cs r pos in
          let neg' := gdrop cs r neg in
          if length pos' =? 0 then Ok (new', t + 2)
          else gopt orig dl (t + 2) (S i) rest new' pos' neg'
  end.

Context (Df : forall p l, D l -> D (filter p l)) (Df' : forall p l, D' l -> D' (filter p l)) (Dsp : forall t l a b, D l -> sp t l = (a, b) -> Permutation (a ++ b) l).
Context (PRa : forall pp np r s, prune pp np r = Ok (Some s) -> exists b, s = set_conds r b /\ Spec.prefix b (conds r) /\ (conds r <> [] -> b <> [])).

(** a rule added while growing the ruleset *)
Definition gadded (pos neg : list E) (r : rule) : Prop :=
  exists t pg pp ng np g, sp t pos = (pg, pp) /\ sp (S t) neg = (ng, np) /\ pg <> [] /\
    ggrow cs (S (length ng)) cands pg ng (h_max_rule_conds h) (h_min_rule_samples h) (Rule_ []) = Ok g /\ conds g <> [] /\
    prune pp np g = Ok (Some r).
Lemma gdrop_rem u r l : gdrop cs r (grem cs u l) = grem cs (u ++ [r]) l. Proof. apply grem_snoc. Qed.
Lemma grip_run_aux fuel init pos neg : forall t a st diff rs t',
  grip fuel t (init ++ a) st diff (grem cs a pos) (grem cs a neg) = Ok (rs, t') ->
  (forall u r v, a = u ++ r :: v -> gadded (grem cs u pos) (grem cs u neg) r /\ ge_lim (length (init ++ u)) (h_max_rules h) = false) ->
  exists new, rs = init ++ new /\
    (forall u r v, new = u ++ r :: v -> gadded (grem cs u pos) (grem cs u neg) r /\ ge_lim (length (init ++ u)) (h_max_rules h) = false).
Proof.
  clear met dlf.
  induction fuel as [|k IH]; intros t a st diff rs t' H T; [discriminate|]. cbn [grip] in H.
  destruct (_ || _); [injection H as <- <-; eauto|].
  destruct (stop_early _ _ _ _ _ _ _) eqn:SE; [injection H as <- <-; eauto|].
  destruct (sp t (grem cs a pos)) as [pg pp] eqn:S1. destruct (sp (S t) (grem cs a neg)) as [ng np] eqn:S2.
  destruct (length pg =? 0) eqn:Z0; [injection H as <- <-; eauto|]. apply Nat.eqb_neq in Z0.
  binv H. rename v into g. rename E0 into G. destruct (rule_isempty g) eqn:GE; [injection H as <- <-; eauto|].
  binv H. rename E0 into PR. destruct v as [s|]; [|discriminate]. binv H. rename E0 into U. destruct v as [st' diff'].
  rewrite !gdrop_rem in H. unfold rs_add in H. rewrite <- app_assoc in H.
  apply (IH _ _ _ _ _ _ H). intros u r v Eq. destruct v as [|x v] using rev_ind.
  - apply app_inj_tail in Eq. destruct Eq as [<- <-]. split.
    + exists t, pg, pp, ng, np, g. repeat split; auto.
      * intros C. subst pg. auto.
      * intros C. unfold rule_isempty in GE. rewrite C in GE. discriminate.
    + unfold stop_early in SE. apply Bool.orb_false_elim in SE. destruct SE as [SE _]. apply Bool.orb_false_elim in SE. tauto.
  - rewrite app_comm_cons, app_assoc in Eq. apply app_inj_tail in Eq. destruct Eq as [Eq _]. eapply T; eauto.
Qed.
Lemma grip_run fuel init pos neg t st diff rs t' : grip fuel t init st diff pos neg = Ok (rs, t') ->
  exists new, rs = init ++ new /\
    (forall u r v, new = u ++ r :: v -> gadded (grem cs u pos) (grem cs u neg) r /\ ge_lim (length (init ++ u)) (h_max_rules h) = false).
Proof.
  clear met dlf.
  intros H. apply (grip_run_aux fuel init pos neg t [] st diff rs t').
  - rewrite app_nil_r, !grem_nil. exact H.
  - intros u r v C. destruct u; discriminate.
Qed.
Lemma gadded_conds pos neg r c : gadded pos neg r -> In c (conds r) -> exists s, In c (cands s).
Proof.
  intros (t & pg & pp & ng & np & g & _ & _ & _ & G & _ & P) I. apply PRa in P. destruct P as (b & -> & [b' B] & _).
  cbn [conds set_conds] in I. apply ggrow_spec in G. destruct G as (r1 & C & X).
  apply (grown_conds cs cands pg ng _ _ _ _ _ (fun c => exists s, In c (cands s)) C X); eauto.
  - intros x [].
  - rewrite B. apply in_or_app; auto.
Qed.
Lemma gadded_len pos neg r m : gadded pos neg r -> h_max_rule_conds h = Some m -> (0 <= m)%Z -> (Z.of_nat (length (conds r)) <= m)%Z.
Proof.
  clear met dlf exc n.
  intros (t & pg & pp & ng & np & g & _ & _ & _ & G & _ & P) M Z. apply PRa in P. destruct P as (b & -> & [b' B] & _).
  cbn [conds set_conds]. apply ggrow_spec in G. destruct G as (r1 & C & X).
  pose proof (grown_len cs cands pg ng _ _ _ _ _ m C X M) as L. cbn in L. specialize (L Z). rewrite B, app_length in L. lia.
Qed.
Lemma gadded_pos pos neg r : D pos -> gadded pos neg r -> conds r <> [] /\ exists i, In i pos /\ gsat cs r i = true.
Proof.
  clear met dlf exc n.
  intros Dp (t & pg & pp & ng & np & g & S1 & _ & NE & G & GN & P). apply PRa in P. destruct P as (b & -> & [b' B] & BN).
  split; [apply BN; auto|]. pose proof (Dsp _ _ _ _ Dp S1) as Q.
  apply ggrow_spec in G. destruct G as (r1 & C & X).
  assert (GP : gcov cs g pg <> []) by (eapply grown_pos; eauto; rewrite gcov_empty; auto).
  destruct (gcov cs g pg) as [|i l] eqn:GC; [congruence|].
  assert (I : In i (gcov cs g pg)) by (rewrite GC; left; auto).
  assert (I' : In i (gcov cs (set_conds g b) pg)) by (apply gcov_prefix_In with g; [exists b'; auto|auto]).
  apply filter_In in I'. exists i. split; [|tauto]. eapply Permutation_in; [exact Q|]. apply in_or_app; left. tauto.
Qed.

(** one slot after an optimisation pass *)
Definition gslot (orig : list rule) (pos neg : list E) (i : nat) (r : rule) (o : option rule) : Prop :=
  exists t pg pp ng np g, sp t (grem cs (firstn i orig) pos) = (pg, pp) /\ sp (S t) (grem cs (firstn i orig) neg) = (ng, np) /\ pg <> [] /\
    (ggrow cs (S (length ng)) cands pg ng None (h_min_rule_samples h) (Rule_ []) = Ok g \/
     ggrow cs (S (length ng)) cands pg ng None (h_min_rule_samples h) r = Ok g) /\
    prune_rule_on (met i pp np) i (i_replaced orig i (Some g)) g = Ok o.
Lemma set_nth_length {A} i (x : A) l : length (set_nth i x l) = length l.
Proof. revert i; induction l as [|a l IH]; intros [|i]; cbn; auto. Qed.
Lemma set_nth_same {A} i (x : A) l : i < length l -> nth_error (set_nth i x l) i = Some x.
Proof. revert i; induction l as [|a l IH]; intros [|i] H; cbn in *; try lia; auto. apply IH. lia. Qed.
Lemma set_nth_other {A} i j (x : A) l : i <> j -> nth_error (set_nth i x l) j = nth_error l j.
Proof. revert i j; induction l as [|a l IH]; intros [|i] [|j] H; cbn; auto; try congruence. Qed.
Lemma choose_run r a b d0 d1 d2 i new new' : choose_rule r a b d0 d1 d2 i new = Ok new' ->
  exists o, new' = set_nth i o new /\ (o = Some r \/ o = a \/ o = b).
Proof.
  unfold choose_rule. intros H. binv H. destruct (nth_error _ v) as [best|] eqn:N; [|discriminate]. injection H as <-.
  eexists. split; [reflexivity|]. destruct (opt_in best new); auto.
  destruct v as [|[|[|v]]]; cbn in N; try (destruct v; discriminate); injection N as <-; auto.
Qed.
Lemma choose_ok r a b d0 d1 d2 i new : isOk (choose_rule r a b d0 d1 d2 i new).
Proof.
  unfold choose_rule, argmin. cbn [bind argmin_loop]. destruct (Qlt_b d0 d0), (Qlt_b d1 d0), (Qlt_b d2 d0), (Qlt_b d2 d1); cbn; eexists; reflexivity.
Qed.

Lemma gopt_run orig dl pos0 neg0 : forall todo t i new pos neg new' t' pre,
  gopt orig dl t i todo new pos neg = Ok (new', t') -> orig = pre ++ todo -> length pre = i -> length new = length orig ->
  pos = grem cs pre pos0 -> neg = grem cs pre neg0 ->
  (forall k r, nth_error todo k = Some r -> nth_error new (i + k) = Some (Some r)) ->
  length new' = length new /\ (forall j, j < i -> nth_error new' j = nth_error new j) /\
  forall k r, nth_error todo k = Some r -> exists o, nth_error new' (i + k) = Some o /\ (o = Some r \/ gslot orig pos0 neg0 (i + k) r o).
Proof.
  induction todo as [|r rest IH]; intros t i new pos neg new' t' pre H O Li Ln Ep En N.
  { injection H as <- <-. split; auto. split; auto. intros k r K. destruct k; discriminate. }
  assert (KEEP : length new = length new /\ (forall j, j < i -> nth_error new j = nth_error new j) /\
    forall k r0, nth_error (r :: rest) k = Some r0 -> exists o, nth_error new (i + k) = Some o /\ (o = Some r0 \/ gslot orig pos0 neg0 (i + k) r0 o)).
  { split; auto. split; auto. intros k r0 K. exists (Some r0). split; auto. }
  cbn [gopt] in H. destruct (sp t pos) as [pg pp] eqn:S1. destruct (sp (S t) neg) as [ng np] eqn:S2.
  destruct (length pg =? 0) eqn:Z0; [injection H as <- <-; exact KEEP|]. apply Nat.eqb_neq in Z0.
  binv H. destruct v; [injection H as <- <-; exact KEEP|]. clear E0.
  binv H. rename v into g1, E0 into G1. binv H. rename v into p1, E0 into P1.
  binv H. rename v into g2, E0 into G2. binv H. rename v into p2, E0 into P2.
  binv H. clear E0. rename v into d1. binv H. clear E0. rename v into d2. binv H. rename v into new1, E0 into CH.
  apply choose_run in CH. destruct CH as (o & -> & CH).
  assert (Il : i < length new) by (rewrite Ln, O, app_length; cbn; lia).
  assert (Fi : firstn i orig = pre) by (rewrite O, <- Li, firstn_app, Nat.sub_diag, firstn_all; cbn; apply app_nil_r).
  assert (SL : o = Some r \/ gslot orig pos0 neg0 i r o).
  { destruct CH as [ -> | [ -> | -> ] ]; auto; right; unfold gslot; rewrite Fi, <- Ep, <- En;
    [exists t, pg, pp, ng, np, g1|exists t, pg, pp, ng, np, g2]; repeat split; auto; intros C; subst pg; auto. }
  assert (N' : forall k r0, nth_error rest k = Some r0 -> nth_error (set_nth i o new) (S i + k) = Some (Some r0)).
  { intros k r0 K. rewrite set_nth_other by lia. specialize (N (S k) r0 K). rewrite <- N. f_equal. lia. }
  destruct (length (gdrop cs r pos) =? 0).
  - injection H as <- <-. split; [apply set_nth_length|]. split; [intros j J; apply set_nth_other; lia|].
    intros [ |k] r0 K.
    + injection K as <-. rewrite Nat.add_0_r. exists o. split; auto. apply set_nth_same; auto.
    + cbn in K. exists (Some r0). split; auto. rewrite <- (N' k r0 K). f_equal. lia.
  - destruct (IH _ _ _ _ _ _ _ (pre ++ [r]) H) as (L1 & L2 & L3).
    + rewrite <- app_assoc. exact O.
    + rewrite app_length. cbn. lia.
    + rewrite set_nth_length. auto.
    + rewrite Ep. apply gdrop_rem.
    + rewrite En. apply gdrop_rem.
    + exact N'.
    + rewrite set_nth_length in L1. split; auto. split; [intros j J; rewrite L2 by lia; apply set_nth_other; lia|].
      intros [ |k] r0 K.
      * injection K as <-. rewrite Nat.add_0_r. exists o. split; auto. rewrite L2 by lia. apply set_nth_same; auto.
      * cbn in K. destruct (L3 k r0 K) as (o' & O1 & O2). replace (i + S k) with (S i + k) by lia. eauto.
Qed.
Lemma force_run l rs : force_rules l = Ok rs -> l = map Some rs.
Proof.
  revert rs. induction l as [|[r|] l IH]; intros rs H; cbn [force_rules] in H; [injection H as <-; auto| |discriminate].
  binv H. injection H as <-. cbn. f_equal. auto.
Qed.
Lemma force_map rs : force_rules (map Some rs) = Ok rs.
Proof. induction rs as [|r rs IH]; [reflexivity|]. cbn [map force_rules]. rewrite IH. reflexivity. Qed.

(** a whole pass *)
Lemma gpass_run orig dl pos neg t new t' rs : gopt orig dl t 0 orig (map Some orig) pos neg = Ok (new, t') -> force_rules new = Ok rs ->
  length rs = length orig /\
  forall j r r', nth_error orig j = Some r -> nth_error rs j = Some r' -> r' = r \/ gslot orig pos neg j r (Some r').
Proof.
  intros H F. apply force_run in F. subst new.
  destruct (gopt_run orig dl pos neg orig t 0 (map Some orig) pos neg _ _ [] H) as (L & _ & K); auto.
  - rewrite map_length; auto.
  - symmetry. apply grem_nil.
  - symmetry. apply grem_nil.
  - intros k r K. cbn. rewrite nth_error_map, K. reflexivity.
  - rewrite !map_length in L. split; auto. intros j r r' J1 J2. destruct (K j r J1) as (o & O1 & O2). cbn in O1.
    rewrite nth_error_map, J2 in O1. injection O1 as <-. destruct O2 as [O2|O2]; auto. left. congruence.
Qed.
Lemma gslot_conds orig pos neg i r r' c : gslot orig pos neg i r (Some r') -> In c (conds r') -> In c (conds r) \/ exists s, In c (cands s).
Proof.
  intros (t & pg & pp & ng & np & g & _ & _ & _ & G & P) I. apply prune_rule_on_any in P. destruct P as (b & -> & [b' B] & _).
  cbn [conds set_conds] in I.
  assert (I' : In c (conds g)) by (rewrite B; apply in_or_app; auto).
  destruct G as [G|G]; apply ggrow_spec in G; destruct G as (r1 & C & X).
  - right. apply (grown_conds cs cands pg ng _ _ _ _ _ (fun c => exists s, In c (cands s)) C X); eauto. intros x [].
  - apply (grown_conds cs cands pg ng _ _ _ _ _ (fun c => In c (conds r) \/ exists s, In c (cands s)) C X); eauto.
Qed.

Lemma gslot_pos orig pos neg i r r' : D pos -> (exists a, In a pos /\ gsat cs r a = true) -> gslot orig pos neg i r (Some r') ->
  exists a, In a pos /\ gsat cs r' a = true.
Proof.
  intros Dp (a & Ia & Sa) (t & pg & pp & ng & np & g & S1 & _ & _ & G & P). apply prune_rule_on_any in P. destruct P as (b & -> & [b' B] & _).
  assert (PX : forall r1 x, (exists y, conds r1 = conds g ++ y) -> gsat cs r1 x = true -> gsat cs (set_conds g b) x = true).
  { intros r1 x [y Y] Hx. unfold gsat in *. rewrite Y, B, !forallb_app, !Bool.andb_true_iff in Hx. cbn [conds set_conds]. tauto. }
  assert (IN : forall x, In x pg -> In x pos).
  { intros x Ix. assert (Q := Dsp _ _ _ _ (Df _ _ Dp) S1). assert (In x (grem cs (firstn i orig) pos)) by (eapply Permutation_in; [exact Q|]; apply in_or_app; auto).
    eapply proj1. apply filter_In. eassumption. }
  assert (K : forall r0, gsat cs r0 a = true -> ggrow cs (S (length ng)) cands pg ng None (h_min_rule_samples h) r0 = Ok g -> exists a, In a pos /\ gsat cs (set_conds g b) a = true).
  { intros r0 S0 G0. apply ggrow_spec in G0. destruct G0 as (r1 & C & X). apply gexit_prefix in X. 
    assert (Z : r1 = r0 \/ gcov cs r1 pg <> []).
    { clear X. induction C as [|? ? ? ? ? ? ? NE ? C IH]; auto. right. destruct C as [|? ? ? ? ? ? ? NE2 ? C2]; auto. eapply gchain_pos; eauto. }
    destruct Z as [->|Z]; [exists a; split; auto; eapply PX; eauto|]. destruct (gcov cs r1 pg) as [|x l] eqn:GC; [congruence|].
    assert (I : In x (gcov cs r1 pg)) by (rewrite GC; left; auto). apply filter_In in I. destruct I as [I1 I2]. exists x. split; auto. eapply PX; eauto. }
  destruct G as [G|G]; [apply (K (Rule_ [])); auto|apply (K r); auto].
Qed.

(** ** Totality *)
Context (rinv : rule -> Prop).
Context (R_conds : forall r s, conds r = conds s -> rinv r -> rinv s)
        (R_prefix : forall r b, rinv r -> Spec.prefix b (conds r) -> rinv (set_conds r b))
        (R_bits : forall r, rinv r -> Nat.max (length (conds r)) 1 < n)
        (R_exc : forall rs, (forall r, In r rs -> rinv r) -> isOk (exc rs))
        (R_new : forall pg ng mc g, D pg -> D' ng -> pg <> [] ->
           ggrow cs (S (length ng)) cands pg ng mc (h_min_rule_samples h) (Rule_ []) = Ok g -> conds g <> [] -> rinv g)
        (R_rev : forall pg ng mc r g, D pg -> D' ng -> pg <> [] -> rinv r ->
           ggrow cs (S (length ng)) cands pg ng mc (h_min_rule_samples h) r = Ok g -> rinv g)
        (D_split : forall t l a b, D l -> sp t l = (a, b) -> D a /\ D b) (D_split' : forall t l a b, D' l -> sp t l = (a, b) -> D' a /\ D' b)
        (PRt : forall pp np r, exists s, prune pp np r = Ok (Some s)).
Lemma dl_update_ok r rs st diff : rinv r -> (forall s, In s rs -> rinv s) -> isOk (dl_update exc n r rs st diff).
Proof.
  intros H X. unfold dl_update. destruct (theory_bits_ok _ _ (R_bits r H)) as (a & ->). cbn [bind].
  destruct (R_exc rs X) as [x ->]. destruct st as [[? ?]|]; cbn [bind]; eexists; reflexivity.
Qed.
Lemma rs_add_inv r rs : rinv r -> (forall s, In s rs -> rinv s) -> forall s, In s (rs_add r rs) -> rinv s.
Proof. intros H X s I. unfold rs_add in I. apply in_app_iff in I. destruct I as [I|[<-|[]]]; auto. Qed.
Lemma grip_total fuel : forall t rs st diff pos neg, D pos -> D' neg -> length pos < fuel -> (forall s, In s rs -> rinv s) ->
  exists rs' t', grip fuel t rs st diff pos neg = Ok (rs', t') /\ (forall s, In s rs' -> rinv s).
Proof.
  clear met dlf.
  induction fuel as [|k IH]; intros t rs st diff pos neg Dp Dn L RI; [lia|]. cbn [grip].
  destruct (_ || _); [eauto|]. destruct (stop_early _ _ _ _ _ _ _); [eauto|].
  destruct (sp t pos) as [pg pp] eqn:S1. destruct (sp (S t) neg) as [ng np] eqn:S2.
  destruct (length pg =? 0) eqn:Z0; [eauto|]. apply Nat.eqb_neq in Z0.
  assert (PG : pg <> []) by (intros C; subst pg; auto).
  destruct (D_split _ _ _ _ Dp S1) as [Dpg _]. destruct (D_split' _ _ _ _ Dn S2) as [Dng _].
  destruct (ggrow_total0 cs cands pg ng (h_max_rule_conds h) (h_min_rule_samples h) (Rule_ [])) as [g G]. rewrite G. cbn [bind].
  destruct (rule_isempty g) eqn:GE; [eauto|].
  assert (GN : conds g <> []) by (intros C; unfold rule_isempty in GE; rewrite C in GE; discriminate).
  pose proof (R_new _ _ _ _ Dpg Dng PG G GN) as RG.
  destruct (PRt pp np g) as (s & P). rewrite P. cbn [bind].
  assert (RS : rinv s). { destruct (PRa _ _ _ _ P) as (b & -> & B & _). apply R_prefix; auto. }
  destruct (dl_update_ok s (rs_add s rs) st diff RS (rs_add_inv _ _ RS RI)) as [[st' diff'] ->]. cbn [bind].
  apply IH; auto; try (apply Df; auto); try (apply Df'; auto).
  - destruct (gadded_pos pos neg s Dp) as (_ & i & I1 & I2).
    { exists t, pg, pp, ng, np, g. auto 10. }
    assert (length (gdrop cs s pos) < length pos); [|lia]. apply gdrop_fewer with i; auto.
  - apply rs_add_inv; auto.
Qed.

Context (MT : forall i pp np r, pp <> [] -> exists q, met i pp np r = Ok (Some q) /\ (0 <= q)%Q)
        (DL : forall rs, (forall r, In r rs -> rinv r) -> isOk (dlf rs))
        (SPn : forall t l a b, D l -> a <> [] -> sp t l = (a, b) -> b <> []).
Lemma prune_on_total i orig pp np g : i < length orig -> pp <> [] -> exists s, prune_rule_on (met i pp np) i (i_replaced orig i (Some g)) g = Ok (Some s).
Proof.
  intros I P. destruct (conds g) as [|c t] eqn:C.
  - exists g. unfold prune_rule_on, rule_isempty. rewrite C. reflexivity.
  - set (v := fun p => match met i pp np (set_conds g p) with Ok (Some q) => q | _ => 0%Q end).
    assert (V : forall p, met i pp np (set_conds g p) = Ok (Some (v p)) /\ (0 <= v p)%Q).
    { intros p. unfold v. destruct (MT i pp np (set_conds g p) P) as (q & -> & Q). auto. }
    destruct (prune_rule_on_spec (met i pp np) i (i_replaced orig i (Some g)) g v) as (H & _).
    + congruence.
    + unfold i_replaced. rewrite nth_error_app2; rewrite firstn_length_le by lia; [|lia]. rewrite Nat.sub_diag. reflexivity.
    + intros p _ _. apply V.
    + destruct H as (b & B & _); [|eauto]. exists (conds g). split; [apply prefix_refl|]. split; [congruence|apply V].
Qed.
Lemma stop_opt_ok rs a b : isOk (stop_early_opt h (map Some rs) a b).
Proof.
  unfold stop_early_opt. destruct (ge_lim _ _); [eexists; reflexivity|]. destruct (h_max_total_conds h); [|eexists; reflexivity].
  rewrite force_map. eexists; reflexivity.
Qed.
Lemma i_replaced_inv orig i r : rinv r -> (forall s, In s orig -> rinv s) -> forall s, In s (i_replaced orig i (Some r)) -> rinv s.
Proof.
  intros H X s I. unfold i_replaced in I. apply in_app_iff in I. destruct I as [I|I].
  - apply X. rewrite <- (firstn_skipn i orig). apply in_or_app; auto.
  - apply in_app_iff in I. destruct I as [[<-|[]]|I]; auto. apply X. rewrite <- (firstn_skipn (S i) orig). apply in_or_app; auto.
Qed.
Lemma set_nth_map {A B} (f : A -> B) i x l : set_nth i (f x) (map f l) = map f (set_nth i x l).
Proof. revert i; induction l as [|a l IH]; intros [|i]; cbn; auto. f_equal. auto. Qed.
Lemma In_set_nth {A} i (x : A) l y : In y (set_nth i x l) -> y = x \/ In y l.
Proof.
  revert i; induction l as [|a l IH]; intros [|i]; cbn; auto.
  - intros [->|I]; auto.
  - intros [->|I]; auto. apply IH in I. tauto.
Qed.
Lemma gopt_total orig dl : (forall s, In s orig -> rinv s) -> forall todo t i rs pos neg, D pos -> D' neg -> i + length todo = length orig ->
  (forall s, In s todo -> In s orig) -> (forall s, In s rs -> rinv s) ->
  exists rs' t', gopt orig dl t i todo (map Some rs) pos neg = Ok (map Some rs', t') /\ (forall s, In s rs' -> rinv s).
Proof.
  intros RO. induction todo as [|r rest IH]; intros t i rs pos neg Dp Dn Li IN RI; [cbn; eauto|]. cbn [gopt].
  destruct (sp t pos) as [pg pp] eqn:S1. destruct (sp (S t) neg) as [ng np] eqn:S2.
  destruct (length pg =? 0) eqn:Z0; [eauto|]. apply Nat.eqb_neq in Z0.
  assert (PG : pg <> []) by (intros C; subst pg; auto).
  destruct (D_split _ _ _ _ Dp S1) as [Dpg _]. destruct (D_split' _ _ _ _ Dn S2) as [Dng _].
  pose proof (SPn _ _ _ _ Dp PG S1) as PP.
  destruct (stop_opt_ok rs (length pos) (length neg)) as [[] ->]; cbn [bind]; [eauto|].
  assert (Il : i < length orig) by (cbn in Li; lia). assert (Rr : rinv r) by (apply RO, IN; left; auto).
  destruct (ggrow_total0 cs cands pg ng None (h_min_rule_samples h) (Rule_ [])) as [g1 G1]. rewrite G1. cbn [bind].
  destruct (prune_on_total i orig pp np g1 Il PP) as (s1 & P1). rewrite P1. cbn [bind].
  destruct (ggrow_total0 cs cands pg ng None (h_min_rule_samples h) r) as [g2 G2]. rewrite G2. cbn [bind].
  destruct (prune_on_total i orig pp np g2 Il PP) as (s2 & P2). rewrite P2. cbn [bind].
  assert (RG1 : rinv g1).
  { destruct (conds g1) as [|c0 l0] eqn:C1.
    - apply R_conds with (set_conds r []); [cbn; auto|]. apply R_prefix; auto. exists (conds r). reflexivity.
    - apply (R_new pg ng None); auto. congruence. }
  assert (RG2 : rinv g2) by (apply (R_rev pg ng None r g2); auto).
  assert (RS1 : rinv s1). { apply prune_rule_on_any in P1. destruct P1 as (b & -> & B & _). apply R_prefix; auto. }
  assert (RS2 : rinv s2). { apply prune_rule_on_any in P2. destruct P2 as (b & -> & B & _). apply R_prefix; auto. }
  assert (DX : forall s (RS : rinv s), exists d, (if opt_neq (Some s) r then dlf (i_replaced orig i (Some s)) else Ok dl) = Ok d).
  { intros s RS. destruct (opt_neq (Some s) r); [|eauto]. apply DL. apply i_replaced_inv; auto. }
  destruct (DX s1 RS1) as (d1 & ->). destruct (DX s2 RS2) as (d2 & ->). cbn [bind].
  destruct (choose_ok r (Some s1) (Some s2) dl d1 d2 i (map Some rs)) as [new1 CH]. rewrite CH. cbn [bind].
  apply choose_run in CH. destruct CH as (o & -> & CH).
  assert (X : exists s, o = Some s /\ rinv s) by (destruct CH as [ -> | [ -> | -> ] ]; eauto). destruct X as (s & -> & RS).
  rewrite (set_nth_map Some i s rs).
  assert (RI' : forall y, In y (set_nth i s rs) -> rinv y) by (intros y Y; apply In_set_nth in Y; destruct Y as [->|Y]; auto).
  destruct (length (gdrop cs r pos) =? 0); [eauto|].
  apply IH; auto; try (apply Df; auto); try (apply Df'; auto).
  - cbn in Li. lia.
  - intros y Y. apply IN. right; auto.
Qed.
End G.
