(** * Prop_Ripper.v : RIPPER (C26, C30, C31, C34-C39). [setting] as in Prop_Irep.v; [cnopt] is cn_optimize. *)
From Verif Require Import RipperStages RipperSpec Demo Prop_Helpers Prop_Irep Prop_Learn.
From Coq Require Import Lqa Reals Qreals.
Open Scope nat_scope.

(** C34, training part: every stage ends and none raises *)
Theorem C34_ripper_training_total : forall e h df cf pc,
  env_ok e -> (0 < h_prune h)%Q -> (h_prune h <= 1)%Q -> good_frame df -> distinct_labels df -> column_present df cf ->
  exists rs, ripper_train e h true df cf pc (Ruleset_ []) = Ok rs.
Proof.
  intros e h df cf pc Eo P0 P1 G L C.
  destruct (setting_exists e h df cf pc Eo ltac:(lra) ltac:(lra) G L C) as (x & p & n & p' & n' & ST).
  exact (ripper_total ST (or_introl P0)).
Qed.
Print Assumptions C34_ripper_training_total.
Example C34_nonvacuous : exists rs, ripper_train env0 (hyp0 (33#100)) true tennis (s_ "play") (s_ "p") (Ruleset_ []) = Ok rs /\
  map conds (rs_rules rs) = [[c_ "wind" "weak"]].
Proof. eexists. split; vm_compute; reflexivity. Qed.

(** C26 *)
Theorem C26_ripper_conditions_from_data : forall e h cnopt df cf pc x p n p' n' rs r c,
  setting e h df cf pc x p n p' n' -> ripper_train e h cnopt df cf pc (Ruleset_ []) = Ok rs ->
  In r (rs_rules rs) -> In c (conds r) -> from_data df cf c.
Proof.
  intros e h cnopt df cf pc x p n p' n' rs r c ST H Ir Ic. apply (xdata_from ST). exact (ripper_train_conds ST cnopt rs r c H Ir Ic).
Qed.
Print Assumptions C26_ripper_conditions_from_data.

(** C30 *)
Theorem C30_ripper_max_rules : forall e h cnopt df cf pc x p n p' n' init rs m,
  setting e h df cf pc x p n p' n' -> h_max_rules h = Some m -> ripper_train e h cnopt df cf pc init = Ok rs ->
  (Z.of_nat (length (rs_rules rs)) <= Z.max m (Z.of_nat (length (rs_rules init))))%Z.
Proof. intros e h cnopt df cf pc x p n p' n' init rs m ST M H. exact (ripper_train_count ST cnopt init rs H m M). Qed.
Print Assumptions C30_ripper_max_rules.

(** C31: holds without optimisation passes (k=0); [_optimize_ruleset] is called without max_rule_conds *)
Theorem C31_ripper_max_rule_conds_partial : forall e h cnopt df cf pc x p n p' n' rs m r,
  setting e h df cf pc x p n p' n' -> h_max_rule_conds h = Some m -> (0 <= m)%Z -> h_k h = 0 ->
  ripper_train e h cnopt df cf pc (Ruleset_ []) = Ok rs -> In r (rs_rules rs) -> (Z.of_nat (length (conds r)) <= m)%Z.
Proof.
  intros e h cnopt df cf pc x p n p' n' rs m r ST M Z K H Ir.
  pose proof (s_env _ _ _ _ _ _ _ _ _ _ ST) as Eo. pose proof (s_prune0 _ _ _ _ _ _ _ _ _ _ ST) as P0. pose proof (s_prune1 _ _ _ _ _ _ _ _ _ _ ST) as P1.
  destruct cnopt.
  - destruct (ripper_train_cn_stages ST _ rs H) as (cn & rs1 & t1 & rs2 & t2 & rs3 & t3 & rs4 & q & C & S1 & S2 & S3 & S4 & ->).
    cbn [rs_rules Ruleset_] in *. rewrite K in S2. injection S2 as <- <-.
    destruct (st_index ST) as (cn' & C' & IX & _). rewrite C in C'. injection C' as <-. destruct (idx_in ST cn IX) as [Ip In_].
    assert (G : forall t init rs' t', ripper_grow_cn e h cn t init (labels (frows p)) (labels (frows n)) = Ok (rs', t') ->
      (forall s, In s init -> (Z.of_nat (length (conds s)) <= m)%Z) -> forall s, In s rs' -> (Z.of_nat (length (conds s)) <= m)%Z).
    { intros t init rs' t' G I. apply ripper_grow_cn_run in G; auto. destruct G as (new & -> & _ & N). intros s Is.
      apply in_app_iff in Is. destruct Is as [Is|Is]; auto.
      apply in_split in Is. destruct Is as (u & v & Es). specialize (N u s v Es). eapply gadded_len; eauto. apply cn_prune_any. }
    apply best_subset_run in S4. destruct S4 as [S4 _]. revert r Ir. apply (sublist_Forall _ _ _ S4).
    assert (B1 : forall s, In s rs1 -> (Z.of_nat (length (conds s)) <= m)%Z) by (eapply G; eauto; intros s []).
    unfold cover_remaining_cn in S3. destruct (1 <=? _); [eapply G; eauto|injection S3 as <- _; auto].
  - destruct (ripper_train_df_stages ST _ rs H) as (rs1 & t1 & rs2 & t2 & rs3 & poss3 & t3 & rs4 & q & S1 & S2 & S3 & S4 & ->).
    cbn [rs_rules Ruleset_] in *. rewrite K in S2. injection S2 as <- <-. destruct (st_nodup' ST) as [N1 N2].
    assert (G : forall poss t init pp nn rs' t', NoDup (labels pp) -> NoDup (labels nn) -> ripper_grow e h (fcols x) poss t init pp nn = Ok (rs', t') ->
      (forall s, In s init -> (Z.of_nat (length (conds s)) <= m)%Z) -> forall s, In s rs' -> (Z.of_nat (length (conds s)) <= m)%Z).
    { intros poss t init pp nn rs' t' A1 A2 G I. apply ripper_grow_run in G; auto. destruct G as (new & -> & _ & N). intros s Is.
      apply in_app_iff in Is. destruct Is as [Is|Is]; auto.
      apply in_split in Is. destruct Is as (u & v & Es). specialize (N u s v Es). eapply gadded_len; eauto. apply df_prune_any. }
    apply best_subset_run in S4. destruct S4 as [S4 _]. revert r Ir. apply (sublist_Forall _ _ _ S4).
    assert (B1 : forall s, In s rs1 -> (Z.of_nat (length (conds s)) <= m)%Z) by (eapply (G _ _ _ _ _ _ _ N1 N2 S1); intros s []).
    unfold cover_remaining in S3. destruct (1 <=? _); [|injection S3 as <- _ _; auto].
    binv S3. destruct v as [rs' t']. injection S3 as -> _ _. refine (G _ _ _ _ _ _ _ _ _ E B1); apply NoDup_map_filter; auto.
Qed.
Print Assumptions C31_ripper_max_rule_conds_partial.
Definition two_cols : frame := mkframe [s_ "class"; s_ "a"; s_ "b"]
  [ mkrow 0 [s_ "p"; s_ "0"; s_ "1"]; mkrow 1 [s_ "n"; s_ "0"; s_ "0"]; mkrow 2 [s_ "n"; s_ "2"; s_ "2"]; mkrow 3 [s_ "n"; s_ "1"; s_ "1"];
    mkrow 4 [s_ "p"; s_ "0"; s_ "1"]; mkrow 5 [s_ "n"; s_ "2"; s_ "2"]; mkrow 6 [s_ "n"; s_ "0"; s_ "0"] ].
(** max_rule_conds=1 and one optimisation pass: a learned rule has two conditions *)
Definition hyp_mc : hyper := mkhyper (33#100) (Some 10%Z) None None None (Some 1%Z) None 1 (Some 42%Z) 0 1 64.
Theorem C31_ripper_max_rule_conds_refuted : good_frame two_cols /\ distinct_labels two_cols /\ h_max_rule_conds hyp_mc = Some 1%Z /\
  exists rs, ripper_train env0 hyp_mc true two_cols (s_ "class") (s_ "p") (Ruleset_ []) = Ok rs /\
    map conds (rs_rules rs) = [[c_ "a" "0"; c_ "b" "1"]].
Proof.
  split; [apply good_frameb_ok; reflexivity|]. split; [unfold distinct_labels; cbn; repeat constructor; cbn; intuition congruence|].
  split; [reflexivity|]. eexists. split; vm_compute; reflexivity.
Qed.
Print Assumptions C31_ripper_max_rule_conds_refuted.

(** C35: four rows, prune_size=0 (what the constructor turns None into): AttributeError, for the default and for one optimisation pass *)
Definition four : frame := mkframe [s_ "class"; s_ "a"; s_ "b"]
  [ mkrow 0 [s_ "n"; s_ "1"; s_ "0"]; mkrow 1 [s_ "p"; s_ "1"; s_ "2"]; mkrow 2 [s_ "n"; s_ "0"; s_ "0"]; mkrow 3 [s_ "n"; s_ "1"; s_ "2"] ].
Theorem C35_no_prune_refuted : good_frame four /\ distinct_labels four /\
  ripper_train env0 (hyp0 0) true four (s_ "class") (s_ "p") (Ruleset_ []) = Err AttributeError.
Proof.
  split; [apply good_frameb_ok; reflexivity|]. split; [unfold distinct_labels; cbn; repeat constructor; cbn; intuition congruence|].
  vm_compute. reflexivity.
Qed.
Print Assumptions C35_no_prune_refuted.
(** what does hold: prune_size=0 never raises when no optimisation pass is asked for (k=0) *)
Theorem C35_no_prune_partial : forall e h df cf pc,
  env_ok e -> h_prune h == 0 -> h_k h = 0 -> good_frame df -> distinct_labels df -> column_present df cf ->
  exists rs, ripper_train e h true df cf pc (Ruleset_ []) = Ok rs.
Proof.
  intros e h df cf pc Eo P K G L C.
  destruct (setting_exists e h df cf pc Eo ltac:(lra) ltac:(lra) G L C) as (x & p & n & p' & n' & ST).
  exact (ripper_total ST (or_intror K)).
Qed.
Print Assumptions C35_no_prune_partial.
(** the frame of the refutation is fitted once k=0 *)
Example C35_nonvacuous : exists rs, ripper_train env0 (mkhyper 0 (Some 10%Z) None None None None None 1 (Some 42%Z) 0 0 64) true four (s_ "class") (s_ "p") (Ruleset_ []) = Ok rs /\
  map conds (rs_rules rs) = [[c_ "b" "2"]].
Proof. eexists. split; vm_compute; reflexivity. Qed.

(** C36 *)
Lemma rs_theory_real n rs : (forall r, In r rs -> Nat.max (length (conds r)) 1 < n) ->
  exists q, rs_theory n rs = Ok q /\ (0 < q)%Q /\ bits_of q = theory_sum n rs.
Proof.
  induction rs as [|r rs IH]; intros H.
  - exists 1%Q. split; [reflexivity|]. split; [reflexivity|]. unfold bits_of, log2. cbn [theory_sum].
    replace (Q2R 1) with 1%R by (unfold Q2R; cbn; field). rewrite ln_1. field. apply Rgt_not_eq, ln2_pos.
  - destruct IH as (b & B1 & B2 & B3); [intros; apply H; right; auto|].
    destruct (theory_bits_real (length (conds r)) n (H r (or_introl eq_refl))) as (a & A1 & A2 & A3).
    exists (Qred (a * b)). cbn [rs_theory theory_sum]. rewrite A1. cbn [bind]. rewrite B1. cbn [bind]. split; auto.
    split; [rewrite Qred_correct; apply Qmult_lt_0_compat; auto|]. rewrite bits_mult, A3, B3 by auto. reflexivity.
Qed.
(** [q] stands for the real number of bits [bits_of q]; see C36_comparisons *)
Theorem C36_description_length : forall df cf x cn rs pos neg tp fp,
  good_frame df -> distinct_labels df -> cn_make df cf = Ok cn -> drop_col df cf = Ok x ->
  incl pos (labels (frows df)) -> incl neg (labels (frows df)) -> pos <> [] -> neg <> [] ->
  (forall r, In r rs -> Nat.max (length (conds r)) 1 < length (cn_conds cn)) ->
  picks (covered_label x rs) pos tp -> picks (covered_label x rs) neg fp ->
  exists q, total_bits (fun y => exceptions_cn cn y pos neg) (length (cn_conds cn)) rs = Ok q /\ (0 < q)%Q /\
    bits_of q = ruleset_bits (length (cn_conds cn)) (length pos) (length neg) (length tp) (length fp) rs.
Proof.
  intros df cf x cn rs pos neg tp fp G L C X Ip In_ NP NN HR Kp Kn.
  destruct (index_setup df cf x cn) as (IX & Gx & NDx & Lx); auto. pose proof Gx as [_ Dc].
  assert (CV : forall l l', incl l (labels (frows df)) -> l <> [] -> picks (covered_label x rs) l l' -> length (cn_rs_covers cn rs l) = length l').
  { intros l l' Il NE K. rewrite (cn_rs_covers_eq cn x) by (rewrite ?Lx; auto). f_equal.
    eapply picks_unique; [|exact K]. apply picks_filter. intros i Ii. rewrite existsb_exists.
    split; intros (r & Ir & Y); exists r; (split; [auto|]); apply lab_sat_iff in Y; auto. }
  assert (LE : forall l l', picks (covered_label x rs) l l' -> length l' <= length l) by (intros l l' K; induction K; cbn; lia).
  destruct (rs_theory_real _ rs HR) as (a & A1 & A2 & A3).
  pose proof (LE _ _ Kp) as L1. pose proof (LE _ _ Kn) as L2.
  destruct (exception_bits_real (length pos + length neg) (length tp + length fp) (length fp) (length pos - length tp)) as (b & B1 & B2 & B3); try lia.
  assert (B0 : (0 < b)%Q) by lra.
  exists (Qred (a * b)). unfold total_bits. rewrite A1. cbn [bind]. unfold exceptions_cn. rewrite (CV pos tp), (CV neg fp) by auto.
  rewrite <- !Nat2Z.inj_add, <- Nat2Z.inj_sub by lia. rewrite B1. cbn [bind]. split; auto.
  split; [rewrite Qred_correct; apply Qmult_lt_0_compat; auto|].
  rewrite bits_mult, A3, B3 by auto. reflexivity.
Qed.
Print Assumptions C36_description_length.
(** comparing the representatives compares the numbers of bits *)
Theorem C36_comparisons : forall a b, (0 < a)%Q -> (0 < b)%Q -> ((a <= b)%Q <-> (bits_of a <= bits_of b)%R).
Proof. exact bits_le. Qed.
Print Assumptions C36_comparisons.
Example C36_nonvacuous : exists cn x, cn_make tennis (s_ "play") = Ok cn /\ drop_col tennis (s_ "play") = Ok x /\ length (cn_conds cn) = 5 /\
  incl [0;2;4] (labels (frows tennis)) /\ incl [1;3] (labels (frows tennis)) /\
  Nat.max (length (conds (Rule_ [c_ "wind" "weak"]))) 1 < length (cn_conds cn).
Proof. eexists _, _. split; [vm_compute; reflexivity|]. split; [reflexivity|]. split; [reflexivity|]. cbn. unfold incl. cbn. intuition lia. Qed.

(** C37 *)
Theorem C37_mdl_subset : forall exc n rs kept q, best_subset exc n rs = Ok (kept, q) ->
  sublist kept rs /\ total_bits exc n kept = Ok q /\ (forall r t, rs = r :: t -> exists t', kept = r :: t').
Proof. exact best_subset_run. Qed.
Print Assumptions C37_mdl_subset.
(** ... but its description length may exceed that of the ruleset it started from: here the rules a=1, a=2, a=3, learned by
    stages 1-3 with max_rules=3, are cut down to a=1, a=3 although all three are cheaper together *)
Definition seven : frame := mkframe [s_ "a"; s_ "class"]
  [ mkrow 0 [s_ "1"; s_ "p"]; mkrow 1 [s_ "2"; s_ "p"]; mkrow 2 [s_ "3"; s_ "p"]; mkrow 3 [s_ "2"; s_ "p"]; mkrow 4 [s_ "3"; s_ "p"];
    mkrow 5 [s_ "4"; s_ "n"]; mkrow 6 [s_ "5"; s_ "n"] ].
Definition hyp_mr : hyper := mkhyper (33#100) (Some 10%Z) (Some 3%Z) None None None None 1 (Some 42%Z) 0 2 64.
Theorem C37_mdl_refuted : exists cn rs1 t1 rs2 t2 rs3 t3 rs4 d3 d4,
  let pos := [0;1;2;3;4] in let neg := [5;6] in let exc := fun y => exceptions_cn cn y pos neg in let n := length (cn_conds cn) in
  good_frame seven /\ distinct_labels seven /\ cn_make seven (s_ "class") = Ok cn /\
  ripper_grow_cn env0 hyp_mr cn 0 [] pos neg = Ok (rs1, t1) /\
  optimize_iter (fun t rs => optimize_cn env0 hyp_mr cn t rs pos neg) 2 t1 rs1 = Ok (rs2, t2) /\
  cover_remaining_cn env0 hyp_mr cn t2 rs2 pos neg = Ok (rs3, t3) /\
  total_bits exc n rs3 = Ok d3 /\ best_subset exc n rs3 = Ok (rs4, d4) /\
  map conds rs3 = [[c_ "a" "1"]; [c_ "a" "2"]; [c_ "a" "3"]] /\ map conds rs4 = [[c_ "a" "1"]; [c_ "a" "3"]] /\
  (d3 < d4)%Q /\ (bits_of d3 < bits_of d4)%R /\
  ripper_train env0 hyp_mr true seven (s_ "class") (s_ "p") (Ruleset_ []) = Ok (Ruleset_ rs4).
Proof.
  eexists _, _, _, _, _, _, _, _, _, _. intros pos neg exc n.
  split; [apply good_frameb_ok; reflexivity|]. split; [unfold distinct_labels; cbn; repeat constructor; cbn; intuition congruence|].
  split; [vm_compute; reflexivity|]. split; [vm_compute; reflexivity|]. split; [vm_compute; reflexivity|]. split; [vm_compute; reflexivity|].
  split; [vm_compute; reflexivity|]. split; [vm_compute; reflexivity|]. split; [vm_compute; reflexivity|]. split; [vm_compute; reflexivity|].
  split; [vm_compute; reflexivity|]. split; [|vm_compute; reflexivity].
  apply Rnot_le_lt. intros B. apply bits_le in B; [|vm_compute; reflexivity|vm_compute; reflexivity]. vm_compute in B. apply B. reflexivity.
Qed.
Print Assumptions C37_mdl_refuted.

(** C38. [cov]: the examples a rule covers; [cand]: candidate conditions; [pos], [neg]: the training examples; the slot is number j of rs.
    [r'] is grown, from nothing or from r, on the grow parts pg, ng of a split of the examples not covered by the rules before r,
    and is then cut to a prefix. *)
Definition rebuilt {E} (cov : rule -> list E -> list E) (cand : list cond) (pos neg : list E) (rs : list rule) (j : nat) (r r' : rule)
    (pg pp ng np : list E) (g : rule) : Prop :=
  (exists rp rn, picks (fun i => forall s, In s (firstn j rs) -> ~ In i (cov s pos)) pos rp /\
     picks (fun i => forall s, In s (firstn j rs) -> ~ In i (cov s neg)) neg rn /\
     Permutation (pg ++ pp) rp /\ Permutation (ng ++ np) rn) /\ pg <> [] /\
  (exists base ds, (base = [] \/ base = conds r) /\ prefix (conds g) (base ++ ds) /\ grown_by cov cand base ds pg ng) /\
  prefix (conds r') (conds g) /\ (conds g <> [] -> conds r' <> []).
Lemma set_conds_cov cn g b l : cn_rule_covers cn (set_conds g b) l = cn_rule_covers cn (Rule_ b) l.
Proof. reflexivity. Qed.
Lemma grem_picks {E} (cs : cond -> E -> bool) (cov : rule -> list E -> list E) us l :
  (forall s, cov s l = gcov cs s l) -> picks (fun i => forall s, In s us -> ~ In i (cov s l)) l (grem cs us l).
Proof.
  intros H. apply picks_filter. intros i Ii. rewrite Bool.negb_true_iff, <- Bool.not_true_iff_false, existsb_exists. split.
  - intros K s Is Ic. apply K. exists s. split; auto. rewrite H in Ic. apply filter_In in Ic. tauto.
  - intros K (s & Is & C). apply (K s Is). rewrite H. apply filter_In. auto.
Qed.
Theorem C38_optimisation_in_place : forall e h cn t rs pos neg rs' t', env_ok e -> (0 <= h_prune h)%Q -> (h_prune h < 1)%Q ->
  incl pos (cn_all cn) -> incl neg (cn_all cn) -> optimize_cn e h cn t rs pos neg = Ok (rs', t') ->
  length rs' = length rs /\
  forall j r r', nth_error rs j = Some r -> nth_error rs' j = Some r' -> r' = r \/
    exists pg pp ng np g, rebuilt (cn_rule_covers cn) (cn_conds cn) pos neg rs j r r' pg pp ng np g /\
      (conds g <> [] -> pp <> [] -> best_prefix (accuracy_on (cn_rule_covers cn) pp np) (conds g) (conds r')).
Proof.
  intros e h cn t rs pos neg rs' t' Eo P0 P1 Ip In_ H.
  apply optimize_cn_run in H; auto; try lra. destruct H as [L K]. split; auto. intros j r r' J1 J2.
  destruct (K j r r' J1 J2) as [->|(t0 & pg & pp & ng & np & g & S1 & S2 & NE & G & P)]; auto. right.
  pose proof (cn_sp_ok e h cn Eo P0 ltac:(lra)) as OK.
  assert (I1 : incl (grem (lsat cn) (firstn j rs) pos) (cn_all cn)) by (intros a A; apply filter_In in A; apply Ip; tauto).
  assert (I2 : incl (grem (lsat cn) (firstn j rs) neg) (cn_all cn)) by (intros a A; apply filter_In in A; apply In_; tauto).
  pose proof (sp_perm _ _ _ OK _ _ _ _ I1 S1) as Q1. pose proof (sp_perm _ _ _ OK _ _ _ _ I2 S2) as Q2.
  destruct (perm_incl _ _ _ _ Q1 I1) as [J3 J4]. destruct (perm_incl _ _ _ _ Q2 I2) as [J5 J6].
  exists pg, pp, ng, np, g. pose proof P as P'. apply prune_rule_on_any in P'. destruct P' as (b & -> & B1 & B2).
  split.
  - split; [exists (grem (lsat cn) (firstn j rs) pos), (grem (lsat cn) (firstn j rs) neg)|split; [auto|split; [|split; auto]]].
    + split; [apply grem_picks; intros; apply cn_rule_covers_g; auto|]. split; [apply grem_picks; intros; apply cn_rule_covers_g; auto|]. auto.
    + destruct G as [G|G]; rewrite <- grow_rule_cn_g in G by auto; apply C23_grow_rule_cn_min_samples in G; auto; destruct G as (ds & D1 & D2).
      * exists [], ds. auto.
      * exists (conds r), ds. auto.
  - intros GN PP. cbn [conds set_conds].
    assert (NJ : nth_error (i_replaced rs j (Some g)) j = Some g).
    { assert (j < length rs) by (apply nth_error_Some; congruence). unfold i_replaced.
      rewrite nth_error_app2 by (rewrite firstn_length; lia). rewrite firstn_length. replace (j - Nat.min j (length rs)) with 0 by lia. reflexivity. }
    set (v := fun b => (zq (Z.of_nat (length (cn_rule_covers cn (Rule_ b) pp)) + (Z.of_nat (length np) - Z.of_nat (length (cn_rule_covers cn (Rule_ b) np)))) /
       qn (length pp + length np))%Q).
    assert (PZ : length pp + length np <> 0) by (destruct pp; [congruence|cbn; lia]).
    assert (VE : forall b, (v b == accuracy_on (cn_rule_covers cn) pp np b)%Q).
    { intros b0. unfold v, accuracy_on. assert (X : length (cn_rule_covers cn (Rule_ b0) np) <= length np) by (rewrite cn_rule_covers_g by auto; apply filter_length_le).
      replace (zq (Z.of_nat (length (cn_rule_covers cn (Rule_ b0) pp)) + (Z.of_nat (length np) - Z.of_nat (length (cn_rule_covers cn (Rule_ b0) np)))))
        with (qn (length (cn_rule_covers cn (Rule_ b0) pp) + (length np - length (cn_rule_covers cn (Rule_ b0) np)))); [reflexivity|].
      unfold zq, qn. f_equal. lia. }
    destruct (prune_rule_on_spec (cn_met cn j pp np) j _ g v GN NJ) as [Y _].
    + intros p PF PN. unfold cn_met, accuracy_metric. destruct (length pp + length np =? 0) eqn:Z0; [apply Nat.eqb_eq in Z0; lia|].
      unfold v. rewrite <- !cn_rule_covers_g by auto. reflexivity.
    + destruct Y as (b' & Y1 & Y2 & Y3 & Y4 & Y5).
      * exists (conds g). split; [apply prefix_refl|]. split; auto. rewrite VE. unfold accuracy_on.
        assert (X1 : length (cn_rule_covers cn (Rule_ (conds g)) np) <= length np) by (rewrite cn_rule_covers_g by auto; apply filter_length_le).
        assert (X2 : length (cn_rule_covers cn (Rule_ (conds g)) pp) <= length pp) by (rewrite cn_rule_covers_g by auto; apply filter_length_le).
        apply qdiv_range; lia.
      * rewrite P in Y1. injection Y1 as Y1. subst b'. split; [auto|]. split; [auto|]. split; [rewrite <- VE; auto|].
        intros p PF PN. destruct (Y5 p PF PN) as [Y6 Y7]. rewrite <- !VE. split; auto.
Qed.
Print Assumptions C38_optimisation_in_place.
Theorem C38_optimisation_in_place_df : forall e h cols possible t rs pos neg rs' t', env_ok e -> (0 <= h_prune h)%Q -> (h_prune h < 1)%Q ->
  NoDup (labels pos) -> NoDup (labels neg) -> optimize e h cols possible t rs pos neg = Ok (rs', t') ->
  length rs' = length rs /\
  forall j r r', nth_error rs j = Some r -> nth_error rs' j = Some r' -> r' = r \/
    exists pg pp ng np g, rebuilt (rcov cols) possible pos neg rs j r r' pg pp ng np g.
Proof.
  intros e h cols possible t rs pos neg rs' t' Eo P0 P1 N1 N2 H.
  apply optimize_run in H; auto. destruct H as [L K]. split; auto. intros j r r' J1 J2.
  destruct (K j r r' J1 J2) as [->|(t0 & pg & pp & ng & np & g & S1 & S2 & NE & G & P)]; auto. right.
  assert (D1 : NoDup (labels (grem (rsat cols) (firstn j rs) pos))) by (apply NoDup_map_filter; auto).
  assert (D2 : NoDup (labels (grem (rsat cols) (firstn j rs) neg))) by (apply NoDup_map_filter; auto).
  unfold df_split in S1, S2.
  assert (G0 : (0 <= grow_size h)%Q) by (unfold grow_size; lra). assert (G1 : (grow_size h <= 1)%Q) by (unfold grow_size; lra).
  destruct (df_split_spec _ _ _ _ _ _ Eo G0 G1 D1 S1) as [Q1 _]. destruct (df_split_spec _ _ _ _ _ _ Eo G0 G1 D2 S2) as [Q2 _].
  exists pg, pp, ng, np, g. apply prune_rule_on_any in P. destruct P as (b & -> & B1 & B2).
  split; [exists (grem (rsat cols) (firstn j rs) pos), (grem (rsat cols) (firstn j rs) neg)|split; [auto|split; [|split; auto]]].
  - split; [apply grem_picks; reflexivity|]. split; [apply grem_picks; reflexivity|]. auto.
  - destruct G as [G|G]; apply (grow_summary_ms (rsat cols) (rsat_compat cols) _ possible) in G; try apply df_cands_incl; destruct G as (ds & E1 & E2).
    + exists [], ds. split; auto.
    + exists (conds r), ds. split; auto.
Qed.
Print Assumptions C38_optimisation_in_place_df.
Example C38_nonvacuous : exists cn rs', cn_make two_cols (s_ "class") = Ok cn /\
  optimize_cn env0 hyp_mc cn 0 [Rule_ [c_ "a" "0"]] [0;4] [1;2;3;5;6] = Ok (rs', 2) /\ map conds rs' = [[c_ "a" "0"; c_ "b" "1"]].
Proof. eexists _, _. split; [vm_compute; reflexivity|]. split; vm_compute; reflexivity. Qed.

(** C39: true for cn_optimize=False ... *)
Theorem C39_cover_remaining_df : forall e h cols possible t rs pos neg, distinct_cols cols -> pos <> [] ->
  (forall rw, In rw pos -> exists r, In r rs /\ sat_rule cols rw r) ->
  cover_remaining e h cols possible t rs pos neg = Ok (rs, possible, t).
Proof.
  intros e h cols possible t rs pos neg Dc NE H. unfold cover_remaining.
  assert (D : drop_labels pos (labels (rs_rcov cols rs pos)) = []).
  { unfold drop_labels. apply filter_none. intros rw Ir. apply Bool.negb_false_iff, nmem_In, in_map.
    destruct (H rw Ir) as (r & R1 & R2). unfold rs_rcov. destruct (rs_isuniversal rs); auto.
    destruct (rs_isnull rs) eqn:N; [destruct rs; [destruct R1|discriminate]|].
    apply in_flat_map. exists r. split; auto. unfold rcov. apply filter_In. split; auto. unfold row_sat. apply conds_sat_iff; auto. }
  rewrite D. reflexivity.
Qed.
Print Assumptions C39_cover_remaining_df.
(** ... but the default engine does not remove the covered examples first: a complete ruleset gets a duplicate rule *)
Definition five : frame := mkframe [s_ "class"; s_ "a"; s_ "b"]
  [ mkrow 0 [s_ "p"; s_ "0"; s_ "1"]; mkrow 1 [s_ "n"; s_ "2"; s_ "2"]; mkrow 2 [s_ "p"; s_ "0"; s_ "0"]; mkrow 3 [s_ "n"; s_ "2"; s_ "1"];
    mkrow 4 [s_ "n"; s_ "2"; s_ "2"] ].
Theorem C39_cover_remaining_refuted : exists cn rs' t', good_frame five /\ distinct_labels five /\ cn_make five (s_ "class") = Ok cn /\
  cn_rs_covers cn [Rule_ [c_ "a" "0"]] [0; 2] = [0; 2] /\
  cover_remaining_cn env0 (hyp0 (33#100)) cn 4 [Rule_ [c_ "a" "0"]] [0; 2] [1; 3; 4] = Ok (rs', t') /\
  map conds rs' = [[c_ "a" "0"]; [c_ "a" "0"]].
Proof.
  eexists _, _, _. split; [apply good_frameb_ok; reflexivity|].
  split; [unfold distinct_labels; cbn; repeat constructor; cbn; intuition congruence|].
  split; [vm_compute; reflexivity|]. split; [vm_compute; reflexivity|]. split; vm_compute; reflexivity.
Qed.
Print Assumptions C39_cover_remaining_refuted.
