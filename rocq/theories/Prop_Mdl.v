(** * Prop_Mdl.v : C37, C74, C75 -- how RIPPER uses description lengths *)
From Verif Require Import OptChoice MdlSpec Demo Prop_Helpers Prop_Irep Prop_Learn Prop_Ripper.
From Coq Require Import Lqa Reals Qreals Qpower Lra.
Open Scope nat_scope.

Lemma theory_bits_size k n q : theory_bits k n = Ok q -> Nat.max k 1 < n.
Proof.
  unfold theory_bits. destruct (n =? 0) eqn:A; [discriminate|]. destruct (_ =? n) eqn:B; [discriminate|]. destruct (n <? _) eqn:C; [discriminate|]. intros _.
  apply Nat.eqb_neq in A, B. apply Nat.ltb_ge in C. lia.
Qed.
Lemma rs_theory_size n rs : forall q, rs_theory n rs = Ok q -> forall r, In r rs -> Nat.max (length (conds r)) 1 < n.
Proof.
  induction rs as [|s rs IH]; intros q H r I; [destruct I|]. cbn [rs_theory] in H. binv H. rename E into A. binv H. rename E into B.
  destruct I as [->|I]; [eapply theory_bits_size; eauto|eauto].
Qed.
Lemma bits_pow A m : (0 <= A)%Z -> (0 < m)%Q -> bits_of (Qpower 4 A * m) = (IZR A + bits_of m)%R.
Proof.
  intros HA M. destruct (Z_of_nat_complete A HA) as [k ->]. unfold bits_of. rewrite Q2R_mult, Q2R_pow by discriminate.
  assert (F4 : Q2R 4 = 4%R) by (unfold Q2R; cbn; field). rewrite F4, log2_mult, log2_pow, log2_4, <- INR_IZR_INZ; [field|Lra.lra|apply pow_lt; Lra.lra|apply Q2R_pos; auto].
Qed.
Lemma bits_lt a b : (0 < a)%Q -> (0 < b)%Q -> ((a < b)%Q <-> (bits_of a < bits_of b)%R).
Proof.
  intros A B. pose proof (bits_le b a B A) as H. split; intros C.
  - apply Rnot_le_lt. intros D. apply H in D. Lqa.lra.
  - apply Qnot_le_lt. intros D. apply H in D. Lra.lra.
Qed.
Lemma total_pos exc n rs q : (forall l q, exc l = Ok q -> (0 < q)%Q) -> total_bits exc n rs = Ok q -> (0 < q)%Q.
Proof.
  intros XP H. unfold total_bits in H. binv H. rename E into A. binv H. rename E into B. apply Ok_inj in H. subst q. rewrite Qred_correct.
  apply Qmult_lt_0_compat; [eapply rs_theory_pos; eauto|eauto].
Qed.
Lemma cn_exc_pos cn pos neg l q : cn_exc cn pos neg l = Ok q -> (0 < q)%Q.
Proof. apply exception_bits_pos. Qed.
Lemma df_exc_pos cols pos neg l q : df_exc cols pos neg l = Ok q -> (0 < q)%Q.
Proof. apply exception_bits_pos. Qed.

(** the model's exact value is the number of bits of the specification *)
Lemma bits_on_iff {e h df cf pc x p n p' n'} (ST : setting e h df cf pc x p n p' n') cn rs q b : cn_make df cf = Ok cn -> frows p <> [] -> frows n <> [] ->
  total_bits (cn_exc cn (labels (frows p)) (labels (frows n))) (length (cn_conds cn)) rs = Ok q ->
  (bits_on x (length (cn_conds cn)) (labels (frows p)) (labels (frows n)) rs b <-> b = bits_of q).
Proof.
  intros C NP NN H. destruct ST as [Eo P0 P1 G L X S P' N'].
  destruct (index_setup df cf x cn) as (IX & Gx & NDx & Lx); auto. pose proof Gx as [_ Dc].
  assert (ST : setting e h df cf pc x p n p' n') by (constructor; auto). destruct (st_in ST) as [Ip In_]. unfold in_frame in *. rewrite Lx in Ip, In_.
  set (pos := labels (frows p)) in *. set (neg := labels (frows n)) in *.
  assert (NP' : pos <> []) by (unfold pos; destruct (frows p); [congruence|discriminate]). assert (NN' : neg <> []) by (unfold neg; destruct (frows n); [congruence|discriminate]).
  assert (SZ : forall r, In r rs -> Nat.max (length (conds r)) 1 < length (cn_conds cn)) by (unfold total_bits in H; binv H; eapply rs_theory_size; eauto).
  assert (K : forall tp fp, picks (covered_label x rs) pos tp -> picks (covered_label x rs) neg fp -> bits_of q = ruleset_bits (length (cn_conds cn)) (length pos) (length neg) (length tp) (length fp) rs).
  { intros tp fp T F. destruct (C36_description_length df cf x cn rs pos neg tp fp) as (q' & Q1 & _ & Q2); auto. unfold cn_exc in H. rewrite H in Q1. apply Ok_inj in Q1. subst. auto. }
  assert (EX : forall l, exists l', picks (covered_label x rs) l l').
  { intros l. exists (filter (fun i => existsb (fun r => lab_sat x (conds r) i) rs) l). apply picks_filter. intros i _. rewrite existsb_exists.
    split; intros (r & Ir & Y); exists r; (split; [auto|]); apply lab_sat_iff in Y; auto. }
  split.
  - intros (tp & fp & T & F & ->). symmetry. auto.
  - intros ->. destruct (EX pos) as (tp & T). destruct (EX neg) as (fp & F). exists tp, fp. auto.
Qed.

Lemma over_bits exc n init u c A (bits : list rule -> R -> Prop) : (forall l q, exc l = Ok q -> (0 < q)%Q) -> rs_theory n init = Ok c -> (0 <= A)%Z ->
  (forall w q b, total_bits exc n (init ++ w) = Ok q -> (bits (init ++ w) b <-> b = bits_of q)) ->
  (forall w, upto w u -> exists q, pdl exc n init w q) -> (over exc n init A u <-> too_long bits A init u).
Proof.
  intros XP HC HA HB DEF. rewrite (over_total exc n init A u c HC). split.
  - intros (w & d & m & [W (v & V & ->)] & D & M & LT). exists w, v, (bits_of d), (bits_of m). do 3 (split; [auto|]).
    split; [apply (HB _ d); auto|]. split; [apply (HB _ m); auto|]. pose proof (total_pos _ _ _ _ XP D) as D0. pose proof (total_pos _ _ _ _ XP M) as M0.
    rewrite Rplus_comm, <- bits_pow by auto. apply bits_lt; auto. apply Qmult_lt_0_compat; auto. apply pow4_pos.
  - intros (w & v & b & b' & -> & W & V & B & B' & LT).
    assert (U1 : upto w (w ++ v)) by (split; eauto). assert (U2 : upto (w ++ v) (w ++ v)) by (split; [destruct w; [congruence|discriminate]|exists []; rewrite app_nil_r; auto]).
    destruct (DEF _ U1) as (m0 & M0). destruct (DEF _ U2) as (d0 & D0).
    destruct (pdl_total _ _ _ _ _ _ HC M0) as (m & M & _). destruct (pdl_total _ _ _ _ _ _ HC D0) as (d & D & _).
    exists w, d, m. split; [split; eauto|]. split; auto. split; auto.
    apply (HB _ d) in B; auto. apply (HB _ m) in B'; auto. subst b b'. pose proof (total_pos _ _ _ _ XP D) as D1. pose proof (total_pos _ _ _ _ XP M) as M1.
    rewrite Rplus_comm, <- bits_pow in LT by auto. apply bits_lt in LT; auto. apply Qmult_lt_0_compat; auto. apply pow4_pos.
Qed.
Lemma no_too_long_nil bits A init : ~ too_long bits A init [].
Proof. intros (w & v & b & b' & E & W & _). symmetry in E. apply app_eq_nil in E. tauto. Qed.

(** C74. Growing stops on description length exactly as documented. Starting from the rules [init], no rule is added once the description has become
    more than dl_allowance bits longer than the shortest one met since growing began; and growing ends only for that reason, because every positive
    is covered, because a limit is reached, or because no rule can be grown from the split of the examples that are left. *)
Lemma stop_early_limit h rs a b : stop_early (length rs) (count_conds rs) a b (h_max_rules h) (h_min_ruleset_samples h) (h_max_total_conds h) = true <-> limit_reached h rs (a + b).
Proof.
  unfold stop_early, limit_reached. rewrite !Bool.orb_true_iff. unfold ge_lim, lt_lim. split.
  - intros [[H|H]|H].
    + left. destruct (h_max_rules h) as [m|]; [|discriminate]. exists m. split; auto. lia.
    + right. left. destruct (h_max_total_conds h) as [m|]; [|discriminate]. exists m. split; auto. lia.
    + right. right. destruct (h_min_ruleset_samples h) as [m|]; [|discriminate]. exists m. split; auto. apply Z.ltb_lt in H. auto.
  - intros [(m & -> & H)|[(m & -> & H)|(m & -> & H)]]; [left; left; apply Z.leb_le; auto|left; right; apply Z.leb_le; auto|right; apply Z.ltb_lt; auto].
Qed.
Theorem C74_dl_allowance : forall e h df cf pc x p n p' n' cn t init rs t',
  setting e h df cf pc x p n p' n' -> cn_make df cf = Ok cn -> (0 <= h_dl h)%Z ->
  (forall r, In r init -> Nat.max (length (conds r)) 1 < length (cn_conds cn)) ->
  let pos := labels (frows p) in let neg := labels (frows n) in
  let bits := bits_on x (length (cn_conds cn)) pos neg in
  ripper_grow_cn e h cn t init pos neg = Ok (rs, t') ->
  exists new, rs = init ++ new /\
    (forall u r v, new = u ++ r :: v -> ~ too_long bits (h_dl h) init u) /\
    (too_long bits (h_dl h) init new \/
     exists lp ln, picks (uncovered_label x new) pos lp /\ picks (uncovered_label x new) neg ln /\
       (lp = [] \/ limit_reached h rs (length lp + length ln) \/
        exists pg pp ng np, Permutation (pg ++ pp) lp /\ Permutation (ng ++ np) ln /\
          (pg = [] \/ exists g, grow_rule_cn cn pg ng (h_max_rule_conds h) (h_min_rule_samples h) (Rule_ []) = Ok g /\ conds g = []))).
Proof.
  intros e h df cf pc x p n p' n' cn t init rs t' ST C HA SZ pos neg bits H.
  destruct (st_index ST) as (cn' & C' & IX & Gx & NDx & Lx). rewrite C in C'. apply Ok_inj in C'. subst cn'.
  destruct (idx_in ST cn IX) as [Ip In_]. fold pos neg in Ip, In_.
  pose proof (s_env _ _ _ _ _ _ _ _ _ _ ST) as Eo. pose proof (s_prune0 _ _ _ _ _ _ _ _ _ _ ST) as P0. pose proof (s_prune1 _ _ _ _ _ _ _ _ _ _ ST) as P1.
  pose proof (cn_sp_ok e h cn Eo P0 P1) as OK.
  unfold ripper_grow_cn in H. rewrite ripper_loop_cn_g in H by auto. pose proof H as H0.
  apply grip_allowance in H; auto; [|intros; eapply cn_exc_pos; eauto].
  destruct H as (new & -> & NO & FIN & DEF). exists new. split; auto.
  assert (REM : forall l, incl l (cn_all cn) -> picks (uncovered_label x new) l (grem (lsat cn) new l)).
  { intros l Il. assert (Il' : incl l (labels (frows x))) by (destruct IX as (_ & _ & A); rewrite <- A; auto). apply picks_filter. intros i Ii. rewrite Bool.negb_true_iff, <- Bool.not_true_iff_false, existsb_exists. unfold uncovered_label. pose proof Gx as [_ Dc].
    assert (Q : forall r, gsat (lsat cn) r i = true <-> covers_label x r i).
    { intros r. rewrite <- (gsat_covers x r i); auto. unfold gsat. rewrite !forallb_forall. split; intros Y c Ic; specialize (Y c Ic); rewrite ?(xsat_cn cn x) in * by (auto; apply Il'; auto); auto. }
    split.
    - intros K r Ir Cr. apply K. exists r. split; auto. apply Q. auto.
    - intros K (r & Ir & Cr). apply (K r Ir). apply Q. auto. }
  assert (FF : finished init (lsat cn) (cn_cands cn) (cn_split e h) h pos neg new -> exists lp ln, picks (uncovered_label x new) pos lp /\ picks (uncovered_label x new) neg ln /\
       (lp = [] \/ limit_reached h (init ++ new) (length lp + length ln) \/
        exists pg pp ng np, Permutation (pg ++ pp) lp /\ Permutation (ng ++ np) ln /\
          (pg = [] \/ exists g, grow_rule_cn cn pg ng (h_max_rule_conds h) (h_min_rule_samples h) (Rule_ []) = Ok g /\ conds g = []))).
  { intros F. exists (grem (lsat cn) new pos), (grem (lsat cn) new neg). split; auto. split; auto.
    destruct F as [F|[F|(t0 & pg & pp & ng & np & S1 & S2 & F)]]; [left; auto|right; left; apply stop_early_limit; auto|right; right].
    assert (I1 : incl (grem (lsat cn) new pos) (cn_all cn)) by (intros a A; apply filter_In in A; apply Ip; tauto).
    assert (I2 : incl (grem (lsat cn) new neg) (cn_all cn)) by (intros a A; apply filter_In in A; apply In_; tauto).
    pose proof (sp_perm _ _ _ OK _ _ _ _ I1 S1) as Q1. pose proof (sp_perm _ _ _ OK _ _ _ _ I2 S2) as Q2.
    destruct (perm_incl _ _ _ _ Q1 I1) as [J3 J4]. destruct (perm_incl _ _ _ _ Q2 I2) as [J5 J6].
    exists pg, pp, ng, np. split; auto. split; auto. destruct F as [F|(g & F1 & F2)]; [auto|right]. exists g. rewrite grow_rule_cn_g by auto. auto. }
  assert (ONE : pos = [] \/ neg = [] -> new = []).
  { intros O. apply grip_onesided in H0; auto.
    - rewrite <- (app_nil_r init) in H0 at 2. apply app_inv_head in H0. auto.
    - intros t0 l NE. intros ->. destruct (cn_split e h t0 []) as [a b] eqn:S0. cbn [fst] in NE. pose proof (sp_perm _ _ _ OK t0 [] a b ltac:(intros ? []) S0) as Q.
      symmetry in Q. apply Permutation_nil in Q. apply app_eq_nil in Q. tauto. }
  assert (CASES : (pos = [] \/ neg = []) \/ (frows p <> [] /\ frows n <> [])).
  { unfold pos, neg. destruct (frows p); [left; left; auto|]. destruct (frows n); [left; right; auto|]. right. split; discriminate. }
  destruct CASES as [O|[NP NN]].
  - specialize (ONE O). subst new. split; [intros [|y0 ys] r v E; discriminate|]. destruct FIN as [(w & d & m & [W (v & _ & E)] & _)|FIN]; [symmetry in E; apply app_eq_nil in E; tauto|auto].
  - destruct (rs_theory_ok _ _ SZ) as (c & HC).
    assert (HB : forall w q b, total_bits (cn_exc cn pos neg) (length (cn_conds cn)) (init ++ w) = Ok q -> (bits (init ++ w) b <-> b = bits_of q)).
    { intros w q b T. apply (bits_on_iff ST cn); auto. }
    assert (OV : forall u v, new = u ++ v -> (over (cn_exc cn pos neg) (length (cn_conds cn)) init (h_dl h) u <-> too_long bits (h_dl h) init u)).
    { intros u v E. apply (over_bits _ _ _ _ c); auto; [intros; eapply cn_exc_pos; eauto|]. intros w [W (z & ->)]. apply DEF. split; auto. exists (z ++ v). rewrite E, app_assoc. auto. }
    split.
    + intros u r v E. rewrite <- (OV u (r :: v) E). eauto.
    + destruct FIN as [F|F]; auto. left. apply (OV new []); auto. rewrite app_nil_r. auto.
Qed.
Print Assumptions C74_dl_allowance.
(** the same for cn_optimize=False. The description length is the one the engine computes (it counts an example once for every rule that covers it). *)
Theorem C74_dl_allowance_df : forall e h cols possible t init pos neg rs t',
  env_ok e -> (0 <= h_prune h)%Q -> (h_prune h <= 1)%Q -> distinct_cols cols -> NoDup (labels pos) -> NoDup (labels neg) -> (0 <= h_dl h)%Z ->
  (forall r, In r init -> Nat.max (length (conds r)) 1 < length possible) ->
  let bits rs b := exists q, total_bits (fun y => exceptions_df cols y pos neg) (length possible) rs = Ok q /\ b = bits_of q in
  ripper_grow e h cols possible t init pos neg = Ok (rs, t') ->
  exists new, rs = init ++ new /\
    (forall u r v, new = u ++ r :: v -> ~ too_long bits (h_dl h) init u) /\
    (too_long bits (h_dl h) init new \/
     exists lp ln, picks (fun rw => forall r, In r new -> ~ sat_rule cols rw r) pos lp /\ picks (fun rw => forall r, In r new -> ~ sat_rule cols rw r) neg ln /\
       (lp = [] \/ limit_reached h rs (length lp + length ln) \/
        exists pg pp ng np, Permutation (pg ++ pp) lp /\ Permutation (ng ++ np) ln /\
          (pg = [] \/ exists g, grow_rule cols possible pg ng (h_max_rule_conds h) (h_min_rule_samples h) (Rule_ []) = Ok g /\ conds g = []))).
Proof.
  intros e h cols possible t init pos neg rs t' Eo P0 P1 Dc N1 N2 HA SZ bits H.
  unfold ripper_grow in H. rewrite ripper_loop_g in H by auto.
  apply grip_allowance in H; auto; [|intros; eapply df_exc_pos; eauto].
  destruct H as (new & -> & NO & FIN & DEF). exists new. split; auto.
  assert (REM : forall l, picks (fun rw => forall r, In r new -> ~ sat_rule cols rw r) l (grem (rsat cols) new l)).
  { intros l. apply picks_filter. intros rw _. rewrite Bool.negb_true_iff, <- Bool.not_true_iff_false, existsb_exists.
    assert (Q : forall r, gsat (rsat cols) r rw = true <-> sat_rule cols rw r) by (intros r; apply (conds_sat_iff cols (conds r) rw); auto).
    split.
    - intros K r Ir Cr. apply K. exists r. split; auto. apply Q. auto.
    - intros K (r & Ir & Cr). apply (K r Ir). apply Q. auto. }
  destruct (rs_theory_ok _ _ SZ) as (c & HC).
  assert (OV : forall u v, new = u ++ v -> (over (df_exc cols pos neg) (length possible) init (h_dl h) u <-> too_long bits (h_dl h) init u)).
  { intros u v E. apply (over_bits _ _ _ _ c); auto; [intros; eapply df_exc_pos; eauto| |].
    - intros w q b T. split; [intros (q' & T' & ->)|intros ->; exists q; auto]. unfold df_exc in T. rewrite T in T'. apply Ok_inj in T'. subst. auto.
    - intros w [W (z & ->)]. apply DEF. split; auto. exists (z ++ v). rewrite E, app_assoc. auto. }
  split.
  - intros u r v E. rewrite <- (OV u (r :: v) E). eauto.
  - destruct FIN as [F|F]; [left; apply (OV new []); auto; rewrite app_nil_r; auto|right].
    exists (grem (rsat cols) new pos), (grem (rsat cols) new neg). split; auto. split; auto.
    destruct F as [F|[F|(t0 & pg & pp & ng & np & S1 & S2 & F)]]; [left; auto|right; left; apply stop_early_limit; auto|right; right].
    assert (D1 : NoDup (labels (grem (rsat cols) new pos))) by (apply NoDup_map_filter; auto).
    assert (D2 : NoDup (labels (grem (rsat cols) new neg))) by (apply NoDup_map_filter; auto).
    unfold df_split in S1, S2.
    assert (G0 : (0 <= grow_size h)%Q) by (unfold grow_size; Lqa.lra). assert (G1 : (grow_size h <= 1)%Q) by (unfold grow_size; Lqa.lra).
    destruct (df_split_spec _ _ _ _ _ _ Eo G0 G1 D1 S1) as [Q1 _]. destruct (df_split_spec _ _ _ _ _ _ Eo G0 G1 D2 S2) as [Q2 _].
    exists pg, pp, ng, np. split; auto. split; auto. destruct F as [F|(g & F1 & F2)]; [auto|right]. exists g. rewrite grow_rule_g. auto.
Qed.
Print Assumptions C74_dl_allowance_df.
(** with a negative allowance no rule is ever added *)
Theorem C74_negative_allowance : forall e h df cf pc x p n p' n' cnopt init rs,
  setting e h df cf pc x p n p' n' -> (h_dl h < 0)%Z -> h_k h = 0 -> ripper_train e h cnopt df cf pc init = Ok rs -> sublist (rs_rules rs) (rs_rules init).
Proof.
  intros e h df cf pc x p n p' n' cnopt init rs ST HA K H.
  pose proof (s_env _ _ _ _ _ _ _ _ _ _ ST) as Eo. pose proof (s_prune0 _ _ _ _ _ _ _ _ _ _ ST) as P0. pose proof (s_prune1 _ _ _ _ _ _ _ _ _ _ ST) as P1.
  destruct cnopt.
  - destruct (ripper_train_cn_stages ST _ rs H) as (cn & rs1 & t1 & rs2 & t2 & rs3 & t3 & rs4 & q & C & S1 & S2 & S3 & S4 & ->).
    destruct (st_index ST) as (cn' & C' & IX & _). rewrite C in C'. apply Ok_inj in C'. subst cn'. destruct (idx_in ST cn IX) as [Ip In_].
    rewrite K in S2. injection S2 as <- <-.
    assert (G : forall t init rs' t', ripper_grow_cn e h cn t init (labels (frows p)) (labels (frows n)) = Ok (rs', t') -> rs' = init).
    { intros t i0 rs' t' G. unfold ripper_grow_cn in G. rewrite ripper_loop_cn_g in G by auto. apply grip_negative in G; auto. }
    apply G in S1. subst rs1. unfold cover_remaining_cn in S3. cbn [rs_rules Ruleset_].
    assert (rs3 = rs_rules init) as -> by (destruct (1 <=? _); [eapply G; eauto|injection S3 as <- _; auto]).
    apply best_subset_run in S4. tauto.
  - destruct (ripper_train_df_stages ST _ rs H) as (rs1 & t1 & rs2 & t2 & rs3 & poss3 & t3 & rs4 & q & S1 & S2 & S3 & S4 & ->).
    destruct (st_nodup' ST) as [N1 N2]. rewrite K in S2. injection S2 as <- <-.
    assert (G : forall poss t init pp nn rs' t', NoDup (labels pp) -> NoDup (labels nn) -> ripper_grow e h (fcols x) poss t init pp nn = Ok (rs', t') -> rs' = init).
    { intros poss t i0 pp nn rs' t' A1 A2 G. unfold ripper_grow in G. rewrite ripper_loop_g in G by auto. apply grip_negative in G; auto. }
    apply G in S1; auto. subst rs1. cbn [rs_rules Ruleset_].
    assert (rs3 = rs_rules init) as ->.
    { unfold cover_remaining in S3. destruct (1 <=? _); [|injection S3 as <- _ _; auto].
      binv S3. destruct v as [rs' t']. injection S3 as -> _ _. eapply G; [| |exact E]; apply NoDup_map_filter; auto. }
    apply best_subset_run in S4. tauto.
Qed.
Print Assumptions C74_negative_allowance.

(** C75. One optimisation pass changes a rule only for a strict saving -- the rules with that one replaced are described in fewer bits than the best
    subset of the rules the pass started from -- and never into a rule that is already there. *)
Theorem C75_only_savings : forall e h df cf pc x p n p' n' cn t rs rs' t',
  setting e h df cf pc x p n p' n' -> cn_make df cf = Ok cn -> frows p <> [] -> frows n <> [] ->
  let pos := labels (frows p) in let neg := labels (frows n) in
  let bits := bits_on x (length (cn_conds cn)) pos neg in
  optimize_cn e h cn t rs pos neg = Ok (rs', t') ->
  length rs' = length rs /\ exists kept b0, sublist kept rs /\ bits kept b0 /\
  forall j r r', nth_error rs j = Some r -> nth_error rs' j = Some r' -> r' = r \/
    ((forall s, In s (firstn j rs' ++ skipn j rs) -> rule_eqb s r' = false) /\ exists b, bits (with_slot rs j r') b /\ (b < b0)%R).
Proof.
  intros e h df cf pc x p n p' n' cn t rs rs' t' ST C NP NN pos neg bits H.
  destruct (st_index ST) as (cn' & C' & IX & _). rewrite C in C'. apply Ok_inj in C'. subst cn'. destruct (idx_in ST cn IX) as [Ip In_].
  pose proof (s_env _ _ _ _ _ _ _ _ _ _ ST) as Eo. pose proof (s_prune0 _ _ _ _ _ _ _ _ _ _ ST) as P0. pose proof (s_prune1 _ _ _ _ _ _ _ _ _ _ ST) as P1.
  unfold optimize_cn in H. binv H. destruct v as [kept q0]. rename E into B. binv H. destruct v as [new t1]. rename E into G. binv H. rename E into F. injection H as <- <-.
  rewrite optimize_loop_cn_g in G by auto. destruct (gpass_exact _ _ _ _ _ _ _ _ _ _ _ _ _ _ G F) as (L & _). split; auto.
  apply best_subset_run in B. destruct B as (B1 & B2 & _). change (fun x0 => exceptions_cn cn x0 (labels (frows p)) (labels (frows n))) with (cn_exc cn pos neg) in B2.
  exists kept, (bits_of q0). split; auto. split; [apply (bits_on_iff ST cn kept q0); auto|].
  intros j r r' J1 J2. destruct (gpass_saving _ _ _ _ _ _ _ _ _ _ _ _ _ _ G F j r r' J1 J2) as [->|[EX (d & D & LT)]]; auto. right. split.
  - intros s Is. destruct (rule_eqb s r') eqn:Q; auto. exfalso. rewrite <- Bool.not_true_iff_false, existsb_exists in EX. eauto.
  - exists (bits_of d). split; [apply (bits_on_iff ST cn _ d); auto|]. apply bits_lt; auto; eapply total_pos; eauto; intros; eapply cn_exc_pos; eauto.
Qed.
Print Assumptions C75_only_savings.
(** cn_optimize=False compares best subsets on both sides *)
Theorem C75_only_savings_df : forall e h cols possible t rs pos neg rs' t',
  env_ok e -> (0 <= h_prune h)%Q -> (h_prune h <= 1)%Q -> NoDup (labels pos) -> NoDup (labels neg) ->
  optimize e h cols possible t rs pos neg = Ok (rs', t') ->
  let exc := fun y => exceptions_df cols y pos neg in
  length rs' = length rs /\ exists kept q0, best_subset exc (length possible) rs = Ok (kept, q0) /\
  forall j r r', nth_error rs j = Some r -> nth_error rs' j = Some r' -> r' = r \/
    ((forall s, In s (firstn j rs' ++ skipn j rs) -> rule_eqb s r' = false) /\
     exists kept' q, best_subset exc (length possible) (with_slot rs j r') = Ok (kept', q) /\ (bits_of q < bits_of q0)%R).
Proof.
  intros e h cols possible t rs pos neg rs' t' Eo P0 P1 N1 N2 H exc.
  unfold optimize in H. binv H. destruct v as [kept q0]. rename E into B. binv H. destruct v as [new t1]. rename E into G. binv H. rename E into F. injection H as <- <-.
  rewrite optimize_loop_g in G by auto. destruct (gpass_exact _ _ _ _ _ _ _ _ _ _ _ _ _ _ G F) as (L & _). split; auto.
  exists kept, q0. split; auto. pose proof B as B'. apply best_subset_run in B'. destruct B' as (B1 & B2 & _).
  intros j r r' J1 J2. destruct (gpass_saving _ _ _ _ _ _ _ _ _ _ _ _ _ _ G F j r r' J1 J2) as [->|[EX (d & D & LT)]]; auto. right. split.
  - intros s Is. destruct (rule_eqb s r') eqn:Q; auto. exfalso. rewrite <- Bool.not_true_iff_false, existsb_exists in EX. eauto.
  - unfold df_dl in D. binv D. destruct v0 as [k' q]. cbn [snd] in D. apply Ok_inj in D. subst q. exists k', d. split; auto.
    apply best_subset_run in E. destruct E as (_ & E2 & _). apply bits_lt; auto; eapply total_pos; eauto; intros; eapply df_exc_pos; eauto.
Qed.
Print Assumptions C75_only_savings_df.

(** The full rule of choice, default engine: rules are treated in order up to some slot m; in each, the alternatives are a rule regrown from nothing and
    one regrown from the rule itself; the cheapest of the three (the rule itself if equally cheap, then the replacement) is put in the slot, unless it is
    already among the rules, when the slot keeps its rule. The slots from m on keep theirs. *)
Lemma opt_some_in best (l : list rule) : opt_in (Some best) (map Some l) = existsb (fun s => rule_eqb s best) l.
Proof. unfold opt_in. induction l as [|a l IH]; cbn; auto. rewrite IH. auto. Qed.
Theorem C75_choice : forall e h df cf pc x p n p' n' cn t rs rs' t',
  setting e h df cf pc x p n p' n' -> (0 < h_prune h)%Q -> cn_make df cf = Ok cn -> frows p <> [] -> frows n <> [] ->
  let pos := labels (frows p) in let neg := labels (frows n) in
  let bits := bits_on x (length (cn_conds cn)) pos neg in
  optimize_cn e h cn t rs pos neg = Ok (rs', t') ->
  exists m kept q0 b0, best_subset (fun y => exceptions_cn cn y pos neg) (length (cn_conds cn)) rs = Ok (kept, q0) /\ bits kept b0 /\
    m <= length rs /\ skipn m rs' = skipn m rs /\
    (m = length rs \/ exists lp ln, picks (uncovered_label x (firstn m rs)) pos lp /\ picks (uncovered_label x (firstn m rs)) neg ln /\
       (lp = [] \/ limit_reached h rs' (length lp + length ln) \/ exists pp, Permutation pp lp /\ exists t0, random_split e t0 (1 - h_prune h) lp = ([], pp))) /\
    forall j r r', j < m -> nth_error rs j = Some r -> nth_error rs' j = Some r' ->
      exists rep rev b1 b2 best, regrown (cn_rule_covers cn) (cn_conds cn) pos neg rs j [] rep /\ regrown (cn_rule_covers cn) (cn_conds cn) pos neg rs j (conds r) rev /\
        slot_cost bits rs j r b0 rep b1 /\ slot_cost bits rs j r b0 rev b2 /\ cheapest r rep rev b0 b1 b2 best /\
        r' = if existsb (fun s => rule_eqb s best) (firstn j rs' ++ skipn j rs) then r else best.
Proof.
  intros e h df cf pc x p n p' n' cn t rs rs' t' ST PL C NP NN pos neg bits H.
  destruct (st_index ST) as (cn' & C' & IX & Gx & NDx & Lx). rewrite C in C'. apply Ok_inj in C'. subst cn'. destruct (idx_in ST cn IX) as [Ip In_]. fold pos neg in Ip, In_.
  pose proof (s_env _ _ _ _ _ _ _ _ _ _ ST) as Eo. pose proof (s_prune0 _ _ _ _ _ _ _ _ _ _ ST) as P0. pose proof (s_prune1 _ _ _ _ _ _ _ _ _ _ ST) as P1.
  pose proof (cn_sp_ok e h cn Eo P0 P1) as OK.
  assert (OFF : prune_off h = false). { unfold prune_off. destruct (Qeq_bool (h_prune h) 0) eqn:Q; auto. apply Qeq_bool_eq in Q. rewrite Q in PL. discriminate. }
  unfold optimize_cn in H. binv H. destruct v as [kept q0]. rename E into B. binv H. destruct v as [new t1]. rename E into G. binv H. rename E into F. injection H as <- <-.
  rewrite optimize_loop_cn_g in G by auto. destruct (gpass_exact _ _ _ _ _ _ _ _ _ _ _ _ _ _ G F) as (L & m & M1 & M2 & M3 & M4).
  exists m, kept, q0, (bits_of q0). split; auto.
  apply best_subset_run in B. destruct B as (_ & B2 & _). change (fun x0 => exceptions_cn cn x0 pos neg) with (cn_exc cn pos neg) in B2.
  split; [apply (bits_on_iff ST cn kept q0); auto|]. split; auto. split; auto.
  assert (XP : forall l q, cn_exc cn pos neg l = Ok q -> (0 < q)%Q) by (intros; eapply cn_exc_pos; eauto).
  pose proof (total_pos _ _ _ _ XP B2) as Q0.
  split.
  - destruct M3 as [M3|M3]; auto. right. exists (grem (lsat cn) (firstn m rs) pos), (grem (lsat cn) (firstn m rs) neg).
    assert (REM : forall l, incl l (cn_all cn) -> picks (uncovered_label x (firstn m rs)) l (grem (lsat cn) (firstn m rs) l)).
    { intros l Il. assert (Il' : incl l (labels (frows x))) by (destruct IX as (_ & _ & A); rewrite <- A; auto). apply picks_filter. intros i Ii. rewrite Bool.negb_true_iff, <- Bool.not_true_iff_false, existsb_exists. unfold uncovered_label. pose proof Gx as [_ Dc].
      assert (Q : forall r, gsat (lsat cn) r i = true <-> covers_label x r i).
      { intros r. rewrite <- (gsat_covers x r i); auto. unfold gsat. rewrite !forallb_forall. split; intros Y c Ic; specialize (Y c Ic); rewrite ?(xsat_cn cn x) in * by (auto; apply Il'; auto); auto. }
      split.
      - intros K r Ir Cr. apply K. exists r. split; auto. apply Q. auto.
      - intros K (r & Ir & Cr). apply (K r Ir). apply Q. auto. }
    split; auto. split; auto. destruct M3 as [M3|[(t0 & pg & pp & S1 & ->)|M3]]; auto.
    + right. right. exists pp. assert (I1 : incl (grem (lsat cn) (firstn m rs) pos) (cn_all cn)) by (intros a A; apply filter_In in A; apply Ip; tauto).
      pose proof (sp_perm _ _ _ OK _ _ _ _ I1 S1) as Q1. split; auto. exists t0. exact S1.
    + right. left. unfold stop_early_opt in M3. rewrite map_length in M3. destruct (ge_lim (length v) (h_max_rules h)) eqn:GL.
      * apply stop_early_limit. unfold stop_early. rewrite GL. reflexivity.
      * destruct (h_max_total_conds h) as [mt|] eqn:MT.
        -- rewrite force_map in M3. cbn [bind] in M3. apply Ok_inj in M3. apply stop_early_limit. rewrite MT. auto.
        -- apply Ok_inj in M3. apply stop_early_limit. rewrite MT. unfold stop_early in *. cbn [ge_lim] in *. auto.
  - intros j r r' J J1 J2. destruct (M4 j r r' J J1 J2) as (rep & rv & d1 & d2 & best & (t0 & pg & pp & ng & np & g1 & g2 & S1 & S2 & NE & G1 & R1 & G2 & R2 & D1 & D2) & CH & ER).
    assert (I1 : incl (grem (lsat cn) (firstn j rs) pos) (cn_all cn)) by (intros a A; apply filter_In in A; apply Ip; tauto).
    assert (I2 : incl (grem (lsat cn) (firstn j rs) neg) (cn_all cn)) by (intros a A; apply filter_In in A; apply In_; tauto).
    pose proof (sp_perm _ _ _ OK _ _ _ _ I1 S1) as Q1. pose proof (sp_perm _ _ _ OK _ _ _ _ I2 S2) as Q2.
    destruct (perm_incl _ _ _ _ Q1 I1) as [J3 J4]. destruct (perm_incl _ _ _ _ Q2 I2) as [J5 J6].
    assert (PP : pp <> []).
    { refine (sp_on _ _ _ OK _ _ _ _ I1 OFF _ S1). intros Z. rewrite Z in Q1. symmetry in Q1. apply Permutation_nil in Q1. apply app_eq_nil in Q1. tauto. }
    assert (JL : j < length rs) by (apply nth_error_Some; congruence).
    assert (MT : forall i pp np r, pp <> [] -> exists q, cn_met cn i pp np r = Ok (Some q) /\ (0 <= q)%Q).
    { intros i pp0 np0 r0 NE0. unfold cn_met. destruct (accuracy_metric_value (length pp0) (length np0) (length (gcov (lsat cn) r0 pp0)) (length (gcov (lsat cn) r0 np0))) as (q & A1 & _ & A2 & _).
      - destruct pp0; [congruence|cbn; lia].
      - apply filter_length_le.
      - apply filter_length_le.
      - eauto. }
    destruct (prune_on_total (cn_met cn) MT j rs pp np g1 JL PP) as (s1 & S1'). destruct (prune_on_total (cn_met cn) MT j rs pp np g2 JL PP) as (s2 & S2').
    rewrite R1 in S1'. apply Ok_inj in S1'. subst rep. rewrite R2 in S2'. apply Ok_inj in S2'. subst rv.
    assert (RG : forall base g s, ggrow (lsat cn) (S (length ng)) (cn_cands cn) pg ng None (h_min_rule_samples h) base = Ok g ->
      prune_rule_on (cn_met cn j pp np) j (i_replaced rs j (Some g)) g = Ok (Some s) -> regrown (cn_rule_covers cn) (cn_conds cn) pos neg rs j (conds base) s).
    { intros base g s Gg Pg. rewrite <- grow_rule_cn_g in Gg by auto. apply C23_grow_rule_cn_min_samples in Gg; auto. destruct Gg as (ds & E1 & E2).
      apply prune_rule_on_any in Pg. destruct Pg as (b & -> & E3 & E4).
      exists (grem (lsat cn) (firstn j rs) pos), (grem (lsat cn) (firstn j rs) neg), pg, pp, ng, np, g, ds.
      split; [apply grem_picks; intros; apply cn_rule_covers_g; auto|]. split; [apply grem_picks; intros; apply cn_rule_covers_g; auto|]. do 6 (split; [auto|]). auto. }
    assert (CO : forall o d, (if opt_neq (Some o) r then total_bits (cn_exc cn pos neg) (length (cn_conds cn)) (i_replaced rs j (Some o)) else Ok q0) = Ok d ->
      slot_cost bits rs j r (bits_of q0) o (bits_of d) /\ (0 < d)%Q).
    { intros o d. unfold opt_neq, slot_cost. destruct (rule_eqb o r); cbn [negb]; intros K.
      - apply Ok_inj in K. subst d. auto.
      - split; [right; split; auto; apply (bits_on_iff ST cn _ d); auto|eapply total_pos; eauto]. }
    destruct (CO _ _ D1) as [K1 O1]. destruct (CO _ _ D2) as [K2 O2].
    assert (EB : exists b, best = Some b) by (destruct CH as [[-> _]|[[-> _]|[-> _]]]; eauto). destruct EB as (b & ->).
    exists s1, s2, (bits_of d1), (bits_of d2), b. split; [apply (RG (Rule_ []) g1); auto|]. split; [apply (RG r g2); auto|]. split; auto. split; auto. split.
    + destruct CH as [(A1 & A2 & A3)|[(A1 & A2 & A3)|(A1 & A2 & A3)]]; injection A1 as ->.
      * left. split; auto. split; apply bits_le; auto.
      * right. left. split; auto. split; [apply bits_lt|apply bits_le]; auto.
      * right. right. split; auto. split; apply bits_lt; auto.
    + rewrite opt_some_in in ER. destruct (existsb _ _); congruence.
Qed.
Print Assumptions C75_choice.

(** no duplicates: if no rule occurs twice before the pass, none does after it *)
Lemma pass_no_equal rs rs' : length rs' = length rs ->
  (forall j r r', nth_error rs j = Some r -> nth_error rs' j = Some r' -> r' = r \/ forall s, In s (firstn j rs' ++ skipn j rs) -> rule_eqb s r' = false) ->
  no_equal_rules rs -> no_equal_rules rs'.
Proof.
  intros L K N i j r s IJ R S.
  assert (Lj : j < length rs) by (rewrite <- L; apply nth_error_Some; congruence). assert (Li : i < length rs) by lia.
  destruct (nth_error rs j) as [s0|] eqn:S0; [|apply nth_error_None in S0; lia]. destruct (nth_error rs i) as [r0|] eqn:R0; [|apply nth_error_None in R0; lia].
  destruct (K j s0 s S0 S) as [->|KS].
  - destruct (K i r0 r R0 R) as [->|KR]; [exact (N i j _ _ IJ R0 S0)|]. rewrite rule_eqb_sym. apply KR. apply in_or_app. right.
    apply (nth_error_In _ (j - i)). rewrite <- nth_skipn by lia. auto.
  - apply KS. apply in_or_app. left. apply (nth_error_In _ i). 
    assert (X : forall (l : list rule) k, i < k -> nth_error (firstn k l) i = nth_error l i).
    { clear. revert i. induction i as [|i IH]; intros l k H; destruct k as [|k]; try lia; destruct l as [|a l]; cbn; auto. apply IH. lia. }
    rewrite X by auto. auto.
Qed.
Theorem C75_no_duplicates : forall e h cn t rs pos neg rs' t', env_ok e -> (0 <= h_prune h)%Q -> (h_prune h <= 1)%Q ->
  incl pos (cn_all cn) -> incl neg (cn_all cn) -> optimize_cn e h cn t rs pos neg = Ok (rs', t') -> no_equal_rules rs -> no_equal_rules rs'.
Proof.
  intros e h cn t rs pos neg rs' t' Eo P0 P1 Ip In_ H. unfold optimize_cn in H. binv H. destruct v as [kept q0]. binv H. destruct v as [new t1]. rename E0 into G. binv H. rename E0 into F. injection H as <- <-.
  rewrite optimize_loop_cn_g in G by auto. destruct (gpass_exact _ _ _ _ _ _ _ _ _ _ _ _ _ _ G F) as (L & _). apply pass_no_equal; auto.
  intros j r r' J1 J2. destruct (gpass_saving _ _ _ _ _ _ _ _ _ _ _ _ _ _ G F j r r' J1 J2) as [->|[EX _]]; auto. right.
  intros s Is. destruct (rule_eqb s r') eqn:Q; auto. exfalso. rewrite <- Bool.not_true_iff_false, existsb_exists in EX. eauto.
Qed.
Print Assumptions C75_no_duplicates.
Theorem C75_no_duplicates_df : forall e h cols possible t rs pos neg rs' t',
  NoDup (labels pos) -> NoDup (labels neg) -> optimize e h cols possible t rs pos neg = Ok (rs', t') -> no_equal_rules rs -> no_equal_rules rs'.
Proof.
  intros e h cols possible t rs pos neg rs' t' N1 N2 H. unfold optimize in H. binv H. destruct v as [kept q0]. binv H. destruct v as [new t1]. rename E0 into G. binv H. rename E0 into F. injection H as <- <-.
  rewrite optimize_loop_g in G by auto. destruct (gpass_exact _ _ _ _ _ _ _ _ _ _ _ _ _ _ G F) as (L & _). apply pass_no_equal; auto.
  intros j r r' J1 J2. destruct (gpass_saving _ _ _ _ _ _ _ _ _ _ _ _ _ _ G F j r r' J1 J2) as [->|[EX _]]; auto. right.
  intros s Is. destruct (rule_eqb s r') eqn:Q; auto. exfalso. rewrite <- Bool.not_true_iff_false, existsb_exists in EX. eauto.
Qed.
Print Assumptions C75_no_duplicates_df.

(** C37, exact: the final stage keeps the first rule, and each later rule exactly if the rules up to it are described in no more bits than the rules before it *)
Definition worth_keeping (exc : list rule -> res Q) (n : nat) (rs : list rule) (i : nat) : Prop :=
  i = 0 \/ exists d d', total_bits exc n (firstn i rs) = Ok d /\ total_bits exc n (firstn (S i) rs) = Ok d' /\ (bits_of d' <= bits_of d)%R.
Lemma keep_exact exc n : (forall l q, exc l = Ok q -> (0 < q)%Q) -> forall rs pre th t0 dls prev,
  subset_dls exc n pre th rs = Ok dls -> rs_theory n pre = Ok t0 -> (th == t0)%Q ->
  match prev with None => pre = [] | Some d => pre <> [] /\ exists d0, total_bits exc n pre = Ok d0 /\ (d == d0)%Q end ->
  exists idx, picks (worth_keeping exc n (pre ++ rs)) (seq (length pre) (length rs)) idx /\ map Some (keep_rules prev rs dls) = map (nth_error (pre ++ rs)) idx.
Proof.
  intros XP. induction rs as [|r rs IH]; intros pre th t0 dls prev H T0 ET HP.
  { injection H as <-. exists []. split; [constructor|]. destruct prev; reflexivity. }
  cbn [subset_dls] in H. binv H. rename v into a, E into A. binv H. rename v into x, E into X. binv H. rename v into ds, E into DS. apply Ok_inj in H. subst dls.
  assert (RT : rs_theory n [r] = Ok (Qred (a * 1))) by (cbn [rs_theory]; rewrite A; reflexivity).
  destruct (rs_theory_app _ _ _ _ _ T0 RT) as (t1 & T1 & E1). rewrite Qred_correct in E1.
  assert (TB : total_bits exc n (pre ++ [r]) = Ok (Qred (t1 * x))) by (unfold total_bits; rewrite T1; cbn [bind]; rewrite X; reflexivity).
  assert (ED : (Qred (Qred (th * a) * x) == Qred (t1 * x))%Q) by (rewrite !Qred_correct, E1, ET; ring).
  destruct (IH (pre ++ [r]) (Qred (th * a)) t1 ds (Some (Qred (Qred (th * a) * x))) DS T1) as (idx & I1 & I2).
  { rewrite Qred_correct, E1, ET. ring. }
  { split; [destruct pre; discriminate|]. eauto. }
  rewrite <- app_assoc in I1, I2. cbn [app] in I1, I2. rewrite app_length in I1. cbn [length] in I1. rewrite Nat.add_1_r in I1.
  assert (F0 : firstn (length pre) (pre ++ r :: rs) = pre) by (rewrite firstn_app, firstn_all, Nat.sub_diag; apply app_nil_r).
  assert (F1 : firstn (S (length pre)) (pre ++ r :: rs) = pre ++ [r]).
  { rewrite firstn_app. replace (S (length pre) - length pre) with 1 by lia. rewrite firstn_all2 by lia. reflexivity. }
  assert (NR : nth_error (pre ++ r :: rs) (length pre) = Some r) by (rewrite nth_error_app2, Nat.sub_diag by lia; auto).
  cbn [length seq keep_rules].
  assert (YES : worth_keeping exc n (pre ++ r :: rs) (length pre) -> exists idx, picks (worth_keeping exc n (pre ++ r :: rs)) (length pre :: seq (S (length pre)) (length rs)) idx /\
    map Some ([r] ++ keep_rules (Some (Qred (Qred (th * a) * x))) rs ds) = map (nth_error (pre ++ r :: rs)) idx).
  { intros W. exists (length pre :: idx). split; [constructor; auto|]. cbn [app map]. rewrite NR, I2. auto. }
  destruct prev as [d|].
  - destruct HP as [NP (d0 & D0 & E0)].
    assert (P0 : (0 < d0)%Q) by (eapply total_pos; eauto). assert (P1 : (0 < Qred (t1 * x))%Q) by (eapply total_pos; eauto).
    destruct (Qle_bool (Qred (Qred (th * a) * x)) d) eqn:LE.
    + apply YES. right. rewrite F0, F1. exists d0, (Qred (t1 * x)). split; auto. split; auto. apply bits_le; auto. apply Qle_bool_iff in LE. rewrite E0, ED in LE. auto.
    + exists idx. split; auto. constructor; auto. intros [Z|(u & v & U1 & U2 & U3)]; [destruct pre; [congruence|discriminate]|].
      rewrite F0 in U1. rewrite F1 in U2. rewrite D0 in U1. rewrite TB in U2. apply Ok_inj in U1. apply Ok_inj in U2. subst u v.
      apply bits_le in U3; auto. rewrite <- E0, <- ED in U3. apply Qle_bool_iff in U3. congruence.
  - apply YES. left. rewrite HP. reflexivity.
Qed.
Theorem C37_subset_exact : forall exc n rs kept q, (forall l d, exc l = Ok d -> (0 < d)%Q) -> best_subset exc n rs = Ok (kept, q) ->
  exists idx, picks (worth_keeping exc n rs) (seq 0 (length rs)) idx /\ map Some kept = map (nth_error rs) idx.
Proof.
  intros exc n rs kept q XP H. unfold best_subset in H. binv H. rename E into D. binv H. injection H as <- <-.
  exact (keep_exact exc n XP rs [] 1 1 v None D eq_refl ltac:(reflexivity) eq_refl).
Qed.
Print Assumptions C37_subset_exact.
(** the hypothesis holds for both engines' exceptions *)
Theorem C37_exceptions_positive : (forall cn pos neg l d, exceptions_cn cn l pos neg = Ok d -> (0 < d)%Q) /\ (forall cols pos neg l d, exceptions_df cols l pos neg = Ok d -> (0 < d)%Q).
Proof. split; intros; eapply exception_bits_pos; eauto. Qed.
Print Assumptions C37_exceptions_positive.

(** Non-vacuity. On [seven], allowance 0 stops the growth after two rules although positives are left; allowance 1 lets the third one in. *)
Definition hyp_dl (a : Z) : hyper := mkhyper (33#100) (Some 10%Z) None None None None None 1 (Some 42%Z) 0 2 a.
Lemma seven_setting a : exists x p n p' n', setting env0 (hyp_dl a) seven (s_ "class") (s_ "p") x p n p' n' /\ labels (frows p) = [0;1;2;3;4] /\ labels (frows n) = [5;6].
Proof.
  eexists _, _, _, _, _. split.
  - constructor; [apply env0_ok|discriminate|discriminate|apply good_frameb_ok; reflexivity| |reflexivity|reflexivity|reflexivity|reflexivity].
    unfold distinct_labels, seven. cbn. repeat constructor; cbn; intuition discriminate.
  - split; reflexivity.
Qed.
Definition seven_cn : catnap := match cn_make seven (s_ "class") with Ok c => c | Err _ => mkcn [] [] [] end.
Example C74_nonvacuous : exists cn x p n p' n' rs t', cn_make seven (s_ "class") = Ok cn /\ setting env0 (hyp_dl 0) seven (s_ "class") (s_ "p") x p n p' n' /\
  ripper_grow_cn env0 (hyp_dl 0) cn 0 [] (labels (frows p)) (labels (frows n)) = Ok (rs, t') /\ map conds rs = [[c_ "a" "1"]; [c_ "a" "2"]] /\
  too_long (bits_on x (length (cn_conds cn)) (labels (frows p)) (labels (frows n))) 0 [] rs.
Proof.
  destruct (seven_setting 0) as (x & p & n & p' & n' & ST & Ep & En). exists seven_cn, x, p, n, p', n'. eexists. eexists. split; [reflexivity|]. split; [exact ST|].
  rewrite Ep, En. split; [vm_compute; reflexivity|]. split; [vm_compute; reflexivity|].
  eexists [_], [_], _, _. split; [reflexivity|]. split; [discriminate|]. split; [discriminate|]. rewrite <- Ep, <- En. cbn [app].
  assert (NP : frows p <> []) by (intros C; rewrite C in Ep; discriminate). assert (NN : frows n <> []) by (intros C; rewrite C in En; discriminate).
  split; [eapply (bits_on_iff ST seven_cn); [reflexivity|auto|auto|rewrite Ep, En; vm_compute; reflexivity|reflexivity]|].
  split; [eapply (bits_on_iff ST seven_cn); [reflexivity|auto|auto|rewrite Ep, En; vm_compute; reflexivity|reflexivity]|].
  rewrite Rplus_0_r. apply bits_lt; vm_compute; reflexivity.
Qed.
Example C74_allowance_1 : exists cn rs t', cn_make seven (s_ "class") = Ok cn /\ ripper_grow_cn env0 (hyp_dl 1) cn 0 [] [0;1;2;3;4] [5;6] = Ok (rs, t') /\
  map conds rs = [[c_ "a" "1"]; [c_ "a" "2"]; [c_ "a" "3"]].
Proof. eexists _, _, _. split; [vm_compute; reflexivity|]. split; vm_compute; reflexivity. Qed.
(** a pass that changes a rule *)
Example C75_nonvacuous : exists cn x p n p' n' rs', cn_make two_cols (s_ "class") = Ok cn /\ setting env0 hyp_mc two_cols (s_ "class") (s_ "p") x p n p' n' /\
  frows p <> [] /\ frows n <> [] /\ optimize_cn env0 hyp_mc cn 0 [Rule_ [c_ "a" "0"]] (labels (frows p)) (labels (frows n)) = Ok (rs', 2) /\ map conds rs' = [[c_ "a" "0"; c_ "b" "1"]] /\
  no_equal_rules [Rule_ [c_ "a" "0"]].
Proof.
  assert (S : exists x p n p' n', setting env0 hyp_mc two_cols (s_ "class") (s_ "p") x p n p' n' /\ labels (frows p) = [0;4] /\ labels (frows n) = [1;2;3;5;6]).
  { eexists _, _, _, _, _. split.
    - constructor; [apply env0_ok|discriminate|discriminate|apply good_frameb_ok; reflexivity| |reflexivity|reflexivity|reflexivity|reflexivity].
      unfold distinct_labels, two_cols. cbn. repeat constructor; cbn; intuition discriminate.
    - split; reflexivity. }
  destruct S as (x & p & n & p' & n' & ST & Ep & En). eexists. exists x, p, n, p', n'. eexists. split; [vm_compute; reflexivity|]. split; [exact ST|].
  split; [intros C; rewrite C in Ep; discriminate|]. split; [intros C; rewrite C in En; discriminate|]. rewrite Ep, En. split; [vm_compute; reflexivity|]. split; [vm_compute; reflexivity|].
  intros [|i] [|j] r s IJ A B; try lia; cbn in B; destruct j; discriminate.
Qed.
