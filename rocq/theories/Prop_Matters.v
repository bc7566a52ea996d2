(** * Prop_Matters.v : C95 -- no rule of a RIPPER model is redundant on the training data *)
From Verif Require Import Useful Fires FitRun Prop_Fit Prop_FitModel Prop_Irep Prop_Ripper Prop_Useful Demo Prop_Helpers Prop_Fires.
From Verif Require Import ProbaSpec ProbaFacts ClfSpec ClfFacts RipperStages RipperTrain MetricsFacts Allowance CoverFacts.
Open Scope nat_scope.

(** each rule of the list covers a row of the table that no rule before it covers *)
Definition every_rule_matters (df : frame) (rs : list rule) : Prop :=
  forall before r after, rs = before ++ r :: after ->
    exists rw, In rw (frows df) /\ sat_rule (fcols df) rw r /\ forall s, In s before -> ~ sat_rule (fcols df) rw s.

(** ** A rule that the subset stage keeps (other than the first) makes the exceptions cheaper *)
Lemma theory_more k n q : theory_bits k n = Ok q -> (1 < q)%Q.
Proof.
  unfold theory_bits. destruct (n =? 0); [discriminate|]. destruct (_ =? n); [discriminate|]. destruct (n <? _); [discriminate|]. intros H. apply Ok_inj in H; subst.
  rewrite Qred_correct. destruct (Qle_bool 4 _) eqn:L; [apply Qle_bool_iff in L; Lqa.lra|reflexivity].
Qed.
Lemma keep_cheaper exc n : (forall l d, exc l = Ok d -> (0 < d)%Q) -> forall rs pre theory dls prev,
  subset_dls exc n pre theory rs = Ok dls -> (0 < theory)%Q ->
  match prev with None => pre = [] | Some d => exists e0, exc pre = Ok e0 /\ (d == theory * e0)%Q end ->
  forall u r v, keep_rules prev rs dls = u ++ r :: v -> pre ++ u <> [] ->
  exists w e0 e1, incl pre w /\ incl u w /\ incl w (pre ++ rs) /\ exc w = Ok e0 /\ exc (w ++ [r]) = Ok e1 /\ (e1 < e0)%Q.
Proof.
  intros XP rs. induction rs as [|a rs IH]; intros pre theory dls prev S TP I u r v Q NE; cbn [subset_dls] in S.
  { apply Ok_inj in S. subst. destruct u; discriminate. }
  binv S. rename v0 into ta, E into TA. cbn zeta in S. binv S. rename v0 into x, E into X. binv S. rename v0 into rest, E into R. apply Ok_inj in S. subst dls. cbn [keep_rules] in Q.
  pose proof (theory_more _ _ _ TA) as T1. pose proof (XP _ _ X) as XP1.
  assert (TP' : (0 < Qred (theory * ta))%Q). { rewrite Qred_correct. apply Qmult_lt_0_compat; Lqa.lra. }
  assert (I' : match Some (Qred (Qred (theory * ta) * x)) with None => pre ++ [a] = [] | Some d => exists e0, exc (pre ++ [a]) = Ok e0 /\ (d == Qred (theory * ta) * e0)%Q end).
  { exists x. split; auto. apply Qred_correct. }
  assert (REC : forall u' , keep_rules (Some (Qred (Qred (theory * ta) * x))) rs rest = u' ++ r :: v -> incl u (a :: u') \/ incl u u' ->
    exists w e0 e1, incl pre w /\ incl u w /\ incl w (pre ++ a :: rs) /\ exc w = Ok e0 /\ exc (w ++ [r]) = Ok e1 /\ (e1 < e0)%Q).
  { intros u' Q' IU. destruct (IH _ _ _ (Some (Qred (Qred (theory * ta) * x))) R TP' I' u' r v Q') as (w & e0 & e1 & W1 & W2 & W3 & E0 & E1 & LT).
    { intros C. apply app_eq_nil in C. destruct C as [C _]. apply app_eq_nil in C. destruct C; discriminate. }
    exists w, e0, e1. split; [intros z Z; apply W1; apply in_or_app; auto|]. split.
    - destruct IU as [IU|IU]; intros z Z; specialize (IU z Z); [destruct IU as [<-|IU]; [apply W1; apply in_or_app; cbn; auto|auto]|auto].
    - split; [|auto]. intros z Z. specialize (W3 z Z). rewrite <- app_assoc in W3. exact W3. }
  assert (HEAD : keep_rules (Some (Qred (Qred (theory * ta) * x))) rs rest = u ++ r :: v -> exists w e0 e1, incl pre w /\ incl u w /\ incl w (pre ++ a :: rs) /\ exc w = Ok e0 /\ exc (w ++ [r]) = Ok e1 /\ (e1 < e0)%Q).
  { intros Q'. apply (REC u Q'). right. apply incl_refl. }
  destruct prev as [d|].
  - destruct I as (e0 & E0 & D0). destruct (Qle_bool (Qred (Qred (theory * ta) * x)) d) eqn:K; cbn [app] in Q; [|apply HEAD; exact Q].
    destruct u as [|b u]; cbn [app] in Q; injection Q as -> Q.
    + exists pre, e0, x. split; [apply incl_refl|]. split; [intros ? []|]. split; [intros z Z; apply in_or_app; auto|]. split; auto. split; auto.
      apply Qle_bool_iff in K. rewrite Qred_correct, Qred_correct, D0 in K. assert (XE := XP _ _ E0).
      apply (Qmult_lt_l _ _ theory TP). apply Qlt_le_trans with (theory * ta * x)%Q; [|exact K].
      assert (theory * ta * x == theory * (ta * x))%Q as -> by ring. apply (Qmult_lt_l _ _ theory TP). 
      assert (x == 1 * x)%Q as Ex by ring. rewrite Ex at 1. apply (Qmult_lt_r _ _ x XP1). exact T1.
    + apply (REC u Q). left. apply incl_refl.
  - subst pre. destruct u as [|b u]; cbn [app] in Q; injection Q as -> Q; [exfalso; apply NE; reflexivity|]. apply (REC u Q). left. apply incl_refl.
Qed.

Section S.
Context {e h df cf pc x p n p' n'} (ST : setting e h df cf pc x p n p' n').
Notation pos0 := (labels (frows p)). Notation neg0 := (labels (frows n)).
Lemma ripper_fine_cn rs : ripper_train e h true df cf pc (Ruleset_ []) = Ok rs ->
  exists cn rs3 q, is_index cn x /\ best_subset (cn_exc cn pos0 neg0) (length (cn_conds cn)) rs3 = Ok (rs_rules rs, q) /\ forall r, In r rs3 -> fine_cn (p := p) cn r.
Proof.
  intros H. destruct (ripper_train_cn_stages ST _ rs H) as (cn & rs1 & t1 & rs2 & t2 & rs3 & t3 & rs4 & q & C & S1 & S2 & S3 & S4 & ->). cbn [rs_rules Ruleset_] in *.
  destruct (st_index ST) as (cn' & C' & IX & _). assert (cn' = cn) by congruence. subst cn'.
  assert (B1 : forall r, In r rs1 -> fine_cn cn r) by (eapply (grow_cn_fine ST); eauto; intros s []).
  apply optimize_iter_inv with (P := fun l => forall r, In r l -> fine_cn (p := p) cn r) in S2; auto.
  2:{ intros t a b t' La Hab. eapply (optimize_cn_fine ST); eauto. }
  exists cn, rs3, q. split; auto. split; auto. unfold cover_remaining_cn in S3. destruct (1 <=? _); [|injection S3 as <- _; auto]. eapply (grow_cn_fine ST); eauto.
Qed.
Lemma fine_x cn r : is_index cn x -> fine_cn (p := p) cn r -> exists i, In i pos0 /\ gsat (xsat x) r i = true.
Proof.
  intros IX [_ (i & I1 & I2)]. exists i. split; auto. destruct (st_in ST) as [Jp Jn]. destruct (st_xgood ST) as ([_ Dc] & _ & ND & _).
  unfold gsat in *. rewrite forallb_forall in *. intros c Ic. rewrite (xsat_cn cn x) by auto. auto.
Qed.
Lemma same_exceptions cn w r : is_index cn x -> pos0 <> [] -> (neg0 <> [] \/ rs_isuniversal w = true) ->
  (forall i, In i (pos0 ++ neg0) -> lab_sat x (conds r) i = true -> existsb (fun s => lab_sat x (conds s) i) w = true) ->
  cn_exc cn pos0 neg0 (w ++ [r]) = cn_exc cn pos0 neg0 w.
Proof.
  intros IX NP NN A. destruct (st_in ST) as [Jp Jn]. destruct (st_xgood ST) as ([_ Dc] & _ & ND & _). unfold cn_exc, exceptions_cn.
  assert (X : forall S, incl S (pos0 ++ neg0) -> incl S (labels (frows x)) -> (S <> [] \/ rs_isuniversal w = true) -> cn_rs_covers cn (w ++ [r]) S = cn_rs_covers cn w S).
  { intros S IS JS C. destruct (rs_isuniversal w) eqn:U.
    - assert (U' : rs_isuniversal (w ++ [r]) = true). { apply universal_iff in U. destruct U as (s & Is & Es). apply universal_iff. exists s. split; auto. apply in_or_app; auto. }
      unfold cn_rs_covers. rewrite U, U'. reflexivity.
    - destruct C as [C|C]; [|discriminate]. rewrite !(cn_rs_covers_eq cn x) by auto. apply filter_ext_in. intros i Ii. rewrite existsb_app. cbn [existsb]. rewrite Bool.orb_false_r.
      destruct (lab_sat x (conds r) i) eqn:L; [|apply Bool.orb_false_r]. rewrite (A i); auto. }
  rewrite !X; auto.
  - intros z Z. apply in_or_app; auto.
  - intros z Z. apply in_or_app; auto.
Qed.
Lemma ripper_matters rs : ripper_train e h true df cf pc (Ruleset_ []) = Ok rs -> every_rule_matters df (rs_rules rs).
Proof.
  intros H u r v Q. destruct (ripper_fine_cn rs H) as (cn & rs3 & q & IX & BS & FN).
  destruct (st_in ST) as [Jp Jn]. destruct (st_xgood ST) as ([_ Dc] & EL & ND & _).
  pose proof (best_subset_run _ _ _ _ _ BS) as [SL _].
  assert (FK : forall s, In s (rs_rules rs) -> fine_cn (p := p) cn s) by (apply (sublist_Forall (fine_cn (p := p) cn) _ _ SL); auto).
  assert (Fr : fine_cn (p := p) cn r) by (apply FK; rewrite Q; apply in_elt).
  assert (Fu : forall s, In s u -> fine_cn (p := p) cn s) by (intros s Is; apply FK; rewrite Q; apply in_or_app; auto).
  (* it is enough to find a label that r covers and u does not *)
  assert (K : (exists i, In i (labels (frows x)) /\ lab_sat x (conds r) i = true /\ existsb (fun s => lab_sat x (conds s) i) u = false) ->
    exists rw, In rw (frows df) /\ sat_rule (fcols df) rw r /\ forall s, In s u -> ~ sat_rule (fcols df) rw s).
  { intros (i & I1 & I2 & I3). apply lab_sat_iff in I2; auto. assert (C : covers_label x r i) by exact I2. apply (covers_label_df df cf x) in C; [|apply (s_x _ _ _ _ _ _ _ _ _ _ ST)].
    destruct C as (rw & R1 & R2 & R3). exists rw. split; auto. split; auto. intros s Is SS. destruct (fine_x cn s IX (Fu s Is)) as (j & J1 & J2).
    assert (G : gsat (xsat x) s (rlab rw) = true) by (apply (sat_back ST); eauto). rewrite R2 in G. apply gsat_covers in G; auto.
    assert (L : lab_sat x (conds s) i = true) by (apply lab_sat_iff; auto).
    assert (B : existsb (fun s => lab_sat x (conds s) i) u = true) by (apply existsb_exists; eauto). congruence. }
  apply K. destruct u as [|s0 u0].
  { destruct (fine_x cn r IX Fr) as (i & I1 & I2). exists i. split; auto. split; auto. apply gsat_covers in I2; auto. apply lab_sat_iff; auto. }
  set (u := s0 :: u0) in *.
  assert (NP : pos0 <> []). { destruct Fr as [_ (i & I & _)]. intros Z. rewrite Z in I. destruct I. }
  unfold best_subset in BS. binv BS. rename v0 into dls, E into SD. binv BS. rename E into TB. injection BS as EK Eq. rewrite Q in EK.
  assert (XP : forall l d, cn_exc cn pos0 neg0 l = Ok d -> (0 < d)%Q) by (intros l d E; eapply exception_bits_pos; exact E).
  destruct (keep_cheaper _ _ XP rs3 [] 1%Q dls None SD ltac:(reflexivity) eq_refl u r v EK) as (w & e0 & e1 & W1 & W2 & W3 & E0 & E1 & LT); [discriminate|].
  cbn [app] in W3.
  destruct (existsb (fun i => lab_sat x (conds r) i && negb (existsb (fun s => lab_sat x (conds s) i) w)) (pos0 ++ neg0)) eqn:EX.
  - apply existsb_exists in EX. destruct EX as (i & I1 & I2). apply Bool.andb_true_iff in I2. destruct I2 as [I2 I3]. apply Bool.negb_true_iff in I3.
    exists i. split; [apply in_app_or in I1; destruct I1; auto|]. split; auto. rewrite <- Bool.not_true_iff_false in *. intros C. apply I3. apply existsb_exists in C.
    destruct C as (s & Is & Cs). apply existsb_exists. eauto.
  - exfalso. assert (NN : neg0 <> [] \/ rs_isuniversal w = true).
    { destruct (conds s0) as [|c l] eqn:Cs.
      - right. apply universal_iff. exists s0. split; auto. apply W2. left. reflexivity.
      - left. assert (I0 : In s0 (rs_rules rs)) by (rewrite Q; left; reflexivity). pose proof (ripper_works ST true rs s0 H I0 [] c l Cs) as (rw & T1 & T2 & _).
        intros Z. destruct (st_pn ST) as [Ep En]. assert (I : In rw (frows n)).
        { rewrite En. apply filter_In. split; auto. apply Bool.negb_true_iff. destruct (cell_eq (fcols df) cf pc rw) eqn:CE; auto. exfalso. apply T2. destruct (s_good _ _ _ _ _ _ _ _ _ _ ST) as [_ D].
          unfold cell_eq in CE. destruct (cell (fcols df) cf rw) as [z|] eqn:V; [|discriminate]. exists z. rewrite value_at_cell; auto. }
        assert (I2 : In (rlab rw) neg0) by (apply in_map; auto). rewrite Z in I2. destruct I2. }
    rewrite (same_exceptions cn w r IX NP NN) in E1; [rewrite E0 in E1; apply Ok_inj in E1; subst; Lqa.lra|].
    intros i Ii Li. destruct (existsb (fun s => lab_sat x (conds s) i) w) eqn:EW; auto. exfalso. rewrite <- Bool.not_true_iff_false in EX. apply EX. apply existsb_exists.
    exists i. split; auto. rewrite Li, EW. reflexivity.
Qed.
End S.

(** C95. With the default engine, every rule RIPPER returns covers a training example that no rule before it covers. *)
Theorem C95_ripper_rules_matter : forall e h df cf pc x p n p' n' rs,
  setting e h df cf pc x p n p' n' -> ripper_train e h true df cf pc (Ruleset_ []) = Ok rs -> every_rule_matters df (rs_rules rs).
Proof. intros e h df cf pc x p n p' n' rs ST. apply (ripper_matters ST). Qed.
Print Assumptions C95_ripper_rules_matter.
Lemma matters_sublist df l l' : sublist l' l -> every_rule_matters df l -> every_rule_matters df l'.
Proof.
  intros S H u r v Q. destruct (sublist_at _ _ S u r v Q) as (u' & v' & Q' & I). destruct (H u' r v' Q') as (rw & A1 & A2 & A3). exists rw. repeat (split; auto).
Qed.
Lemma matters_conds df l l' : Forall2 same_conds l' l -> every_rule_matters df l -> every_rule_matters df l'.
Proof.
  intros F H u r v Q. subst l'. apply Forall2_app_inv_l in F. destruct F as (l1 & l2 & F1 & F2 & ->). inversion F2 as [|? r0 ? l3 R F3]; subst.
  destruct (H l1 r0 l3 eq_refl) as (rw & A1 & A3 & A4). exists rw. split; auto. unfold same_conds in R. split; [unfold sat_rule in *; rewrite R; exact A3|].
  intros s Is S. apply (Forall2_In_l _ _ _ _ F1) in Is. destruct Is as (s0 & Is & R0). unfold same_conds in R0. apply (A4 s0 Is). unfold sat_rule in *. rewrite <- R0. exact S.
Qed.
Lemma matters_count df rs : every_rule_matters df rs -> length rs <= length (frows df).
Proof.
  intros H.
  assert (K : forall a b, rs = a ++ b -> exists rws, length rws = length b /\ NoDup rws /\ forall rw, In rw rws -> In rw (frows df) /\ forall s, In s a -> ~ sat_rule (fcols df) rw s).
  { intros a b. revert a. induction b as [|r b IH]; intros a Q.
    - exists []. split; auto. split; [constructor|]. intros ? [].
    - destruct (IH (a ++ [r])) as (rws & L & N & R); [rewrite Q, <- app_assoc; reflexivity|].
      destruct (H a r b Q) as (rw & I & S & NS). exists (rw :: rws). split; [cbn; congruence|]. split.
      + constructor; auto. intros J. destruct (R _ J) as (_ & S'). apply (S' r); [apply in_or_app; cbn; auto|exact S].
      + intros rw' [<-|J]; [auto|]. destruct (R _ J) as (A & S'). split; auto. intros s Is. apply S'. apply in_or_app; auto. }
  destruct (K [] rs eq_refl) as (rws & L & N & R). rewrite <- L. apply NoDup_incl_length; auto. intros rw I. apply R. exact I.
Qed.
(** ... and so does every rule of a classifier that RIPPER.fit trained without an initial model; it has at most as many rules as there are training examples *)
Theorem C95_fit_rules_matter : forall w cl X y cf pc names kw f vs ix cl' x,
  c_alg cl = RIPPER_ -> world_ok w -> training_input X y cf names f vs ix -> NoDup ix ->
  let h := hyper_of cl kw in
  (0 <= h_prune h)%Q -> (h_prune h <= 1)%Q -> (h_nbins h = None \/ exists n, h_nbins h = Some n /\ (0 <= n)%Z) ->
  fit w cl X y cf pc names MNone true kw = (cl', Ok tt) -> c_rs cl' = Some x ->
  length (rs_rules x) <= length vs /\
  exists bt table binned_table, c_bt cl' = Some bt /\ training_df X y f names = Ok table /\ transform bt table = Ok binned_table /\
    forall before r after, rs_rules x = before ++ r :: after ->
      exists rw, In rw (frows binned_table) /\ sat_rule (fcols binned_table) rw r /\ forall s, In s before -> ~ sat_rule (fcols binned_table) rw s.
Proof.
  intros w cl X y cf pc names kw f vs ix cl' x AL WO T ND h P0 P1 NB H RS.
  destruct (fit_trained _ _ _ _ _ _ _ _ _ _ _ _ _ _ WO T ND P0 P1 NB H) as (df & df0 & p & bt & xi & x1 & x2 & xx & pp & nn & p' & n' & FT & G & L & HC & TD & TR & ST).
  pose proof (pre_good _ _ _ _ _ _ _ _ _ _ _ _ _ _ _ WO (nbins_fine_ok _ NB) T ND (ft_pre _ _ _ _ _ _ _ _ _ _ _ _ _ _ _ _ _ _ FT)) as (_ & _ & _ & _ & _ & CV & _).
  destruct FT as [FP FI FTR FF FR FC FPC FB FS FA FH FCl FFe]. rewrite FR in RS. injection RS as <-. cbn in FI. injection FI as <-.
  rewrite AL in FTR. cbn [train] in FTR.
  assert (M : every_rule_matters df (rs_rules x2)).
  { apply (matters_conds df (kept w h (rs_rules x1))); [eapply finish_conds; eauto|]. apply (matters_sublist df (rs_rules x1)); [apply kept_sublist|]. eapply C95_ripper_rules_matter; eauto. }
  split.
  - rewrite <- CV, TransFacts.column_length; [apply matters_count; exact M|apply G|exact HC].
  - exists bt, df0, df. do 3 (split; [auto|]). exact M.
Qed.
Print Assumptions C95_fit_rules_matter.

(** With cn_optimize=False it is false: examples covered by several rules are counted several times (C05), so a rule all of whose examples are
    already covered can seem to save bits and is kept. *)
Definition sixteen : frame := mkframe [s_ "a"; s_ "b"; s_ "c"; s_ "class"]
  [mkrow 0 [s_ "z"; s_ "z"; s_ "z"; s_ "n"]; mkrow 1 [s_ "y"; s_ "x"; s_ "y"; s_ "n"]; mkrow 2 [s_ "x"; s_ "x"; s_ "y"; s_ "n"]; mkrow 3 [s_ "z"; s_ "y"; s_ "x"; s_ "p"];
   mkrow 4 [s_ "x"; s_ "y"; s_ "y"; s_ "p"]; mkrow 5 [s_ "x"; s_ "y"; s_ "z"; s_ "p"]; mkrow 6 [s_ "y"; s_ "x"; s_ "x"; s_ "n"]; mkrow 7 [s_ "x"; s_ "z"; s_ "z"; s_ "p"];
   mkrow 8 [s_ "z"; s_ "y"; s_ "x"; s_ "n"]; mkrow 9 [s_ "y"; s_ "y"; s_ "y"; s_ "n"]; mkrow 10 [s_ "x"; s_ "z"; s_ "y"; s_ "n"]; mkrow 11 [s_ "y"; s_ "z"; s_ "z"; s_ "n"];
   mkrow 12 [s_ "x"; s_ "x"; s_ "z"; s_ "p"]; mkrow 13 [s_ "y"; s_ "x"; s_ "y"; s_ "n"]; mkrow 14 [s_ "z"; s_ "y"; s_ "y"; s_ "p"]; mkrow 15 [s_ "z"; s_ "z"; s_ "y"; s_ "p"]].
Lemma sixteen_setting h : (0 <= h_prune h)%Q -> (h_prune h <= 1)%Q -> exists x p n p' n', setting env0 h sixteen (s_ "class") (s_ "p") x p n p' n'.
Proof.
  intros P0 P1. apply setting_exists; auto using env0_ok.
  - apply good_frameb_ok. reflexivity.
  - unfold distinct_labels, sixteen. cbn. repeat constructor; cbn; intuition discriminate.
  - apply has_col_iff. reflexivity.
Qed.
Theorem C95_without_catnap_refuted : exists h rs c d, h = hyp0 (33#100) /\ (exists x p n p' n', setting env0 h sixteen (s_ "class") (s_ "p") x p n p' n') /\
  ripper_train env0 h false sixteen (s_ "class") (s_ "p") (Ruleset_ []) = Ok rs /\ map conds (rs_rules rs) = [[c]; [c; d]] /\ ~ every_rule_matters sixteen (rs_rules rs).
Proof.
  eexists. eexists. eexists. eexists. split; [reflexivity|]. split; [apply sixteen_setting; discriminate|]. split; [vm_compute; reflexivity|]. split; [reflexivity|].
  intros M. match type of M with every_rule_matters _ (rs_rules {| rs_rules := [?a; ?b]; rs_possible := _; rs_uncov := _ |}) => destruct (M [a] b [] eq_refl) as (rw & _ & S & N); apply (N a) end; [left; reflexivity|].
  intros k K. apply S. destruct K as [<-|[]]. left. reflexivity.
Qed.
Print Assumptions C95_without_catnap_refuted.

(** Non-vacuity: two rules; the second covers a row the first does not *)
Example C95_nonvacuous : exists rs r1 r2, ripper_train env0 (hyp0 (33#100)) true sixteen (s_ "class") (s_ "p") (Ruleset_ []) = Ok rs /\ rs_rules rs = [r1; r2] /\
  exists rw, In rw (frows sixteen) /\ sat_rule (fcols sixteen) rw r2 /\ ~ sat_rule (fcols sixteen) rw r1.
Proof.
  destruct (sixteen_setting (hyp0 (33#100))) as (x & p & n & p' & n' & ST); [discriminate|discriminate|].
  eexists. eexists. eexists. split; [vm_compute; reflexivity|]. split; [reflexivity|].
  edestruct (C95_ripper_rules_matter env0 (hyp0 (33#100)) sixteen) as (rw & A1 & A2 & A3); [exact ST|vm_compute; reflexivity|exact (eq_refl ([_] ++ _ :: []))|].
  exists rw. split; [exact A1|]. split; [exact A2|]. apply A3. left. reflexivity.
Qed.
Definition sixteen_rows : list (list pyval) := map (fun r => firstn 3 (rcells r)) (frows sixteen).
Definition sixteen_y : ydata := YList (map (fun r => nth 3 (rcells r) PNaN) (frows sixteen)).
Definition sixteen_fr : frame := mkframe [s_ "a"; s_ "b"; s_ "c"] (map (fun p => mkrow (fst p) (snd p)) (combine (seq 0 16) sixteen_rows)).
Lemma sixteen_input : training_input (DRows sixteen_rows) (Some sixteen_y) (Some (s_ "class")) (Some [s_ "a"; s_ "b"; s_ "c"]) (s_ "class") (y_vals sixteen_y) (seq 0 16).
Proof.
  apply (input_labels _ _ _ _ _ _ _ sixteen_y sixteen_fr); auto.
  - eapply names_given_list; reflexivity.
  - apply (table_rows_named sixteen_rows 3 sixteen_fr); auto; [discriminate|]. intros r I. repeat (destruct I as [<-|I]; [reflexivity|]). destruct I.
  - apply good_frameb_ok. reflexivity.
  - discriminate.
  - reflexivity.
Qed.
Example C95_fit_nonvacuous : exists cl' x r1 r2 bt table binned_table,
  fit w1 (construct RIPPER_ []) (DRows sixteen_rows) (Some sixteen_y) (Some (s_ "class")) (Some (s_ "p")) (Some [s_ "a"; s_ "b"; s_ "c"]) MNone true [] = (cl', Ok tt) /\ c_rs cl' = Some x /\
  map rule_str (rs_rules x) = [$"[a=x^b=y]"; $"[a=z]"] /\ rs_rules x = [r1; r2] /\
  training_df (DRows sixteen_rows) (Some sixteen_y) (s_ "class") (Some [s_ "a"; s_ "b"; s_ "c"]) = Ok table /\ transform bt table = Ok binned_table /\
  exists rw, In rw (frows binned_table) /\ sat_rule (fcols binned_table) rw r2 /\ ~ sat_rule (fcols binned_table) rw r1.
Proof.
  edestruct (C95_fit_rules_matter w1 (construct RIPPER_ []) (DRows sixteen_rows) (Some sixteen_y) (Some (s_ "class")) (Some (s_ "p")) (Some [s_ "a"; s_ "b"; s_ "c"]) [])
    as (_ & bt & t & b & A1 & A2 & A3 & A4); [reflexivity|exact w1_ok|exact sixteen_input|apply seq_NoDup|discriminate|discriminate| |vm_compute; reflexivity|vm_compute; reflexivity|].
  - right. eexists. split; [reflexivity|discriminate].
  - eexists. eexists. eexists. eexists. exists bt, t, b. split; [vm_compute; reflexivity|]. split; [vm_compute; reflexivity|]. split; [vm_compute; reflexivity|]. split; [reflexivity|].
    split; [exact A2|]. split; [exact A3|]. edestruct (A4 [_] _ [] eq_refl) as (rw & B1 & B2 & B3). exists rw. split; [exact B1|]. split; [exact B2|]. apply B3. left. reflexivity.
Qed.
