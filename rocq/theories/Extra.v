(** * Extra.v : a table with one more column; the IREP learner on both *)
From Verif Require Import BaseFacts CoverFacts CallForm FitRun MetricsFacts TransFacts ClfFacts GainFacts DiscFacts Engine IrepFacts Hom IrepTrain Algo PruneFacts RenTrain RuleFacts.
From Coq Require Import Lqa.
Open Scope nat_scope.

(** ** candidates that cannot win are skipped by the scan *)
Lemma scan_skip (g : rule -> Q) la : forall sk lb q o, (forall s, In s sk -> (g s <= q)%Q \/ exists a, In a la /\ (g s <= g a)%Q) ->
  best_succ_scan g q o (la ++ sk ++ lb) = best_succ_scan g q o (la ++ lb).
Proof.
  induction la as [|a la IH]; intros sk lb q o H; cbn [app].
  - induction sk as [|s sk IH]; [reflexivity|]. cbn [app best_succ_scan].
    destruct (H s (or_introl eq_refl)) as [L|(a & [] & _)]. assert (Qlt_b q (g s) = false) as -> by (apply Qlt_b_false; exact L). apply IH. intros s' I. apply H. right. exact I.
  - cbn [best_succ_scan]. destruct (Qlt_b q (g a)) eqn:L.
    + apply Qlt_b_iff in L. apply IH. intros s I. destruct (H s I) as [K|(b & [<-|J] & K)]; [left; lra|left; exact K|right; eauto].
    + apply Qlt_b_false in L. apply IH. intros s I. destruct (H s I) as [K|(b & [<-|J] & K)]; [left; exact K|left; lra|right; eauto].
Qed.
Lemma scan_ext (g g' : rule -> Q) l : (forall s, In s l -> g s = g' s) -> forall q o, best_succ_scan g q o l = best_succ_scan g' q o l.
Proof.
  induction l as [|s l IH]; intros H q o; [reflexivity|]. cbn [best_succ_scan]. rewrite (H s (or_introl eq_refl)). destruct (Qlt_b _ _); apply IH; intros; apply H; right; auto.
Qed.
Lemma prune_loop_ext m m' r : (forall k, m (set_conds r (firstn k (conds r))) = m' (set_conds r (firstn k (conds r)))) -> forall n q o, prune_loop m r n q o = prune_loop m' r n q o.
Proof.
  intros H. induction n as [|n IH]; intros q o; [reflexivity|]. cbn [prune_loop]. rewrite H. destruct (m' _) as [[v|]|]; cbn [bind]; auto. destruct (Qle_bool _ _); apply IH.
Qed.
Lemma prune_rule_ext m m' r : (forall k, m (set_conds r (firstn k (conds r))) = m' (set_conds r (firstn k (conds r)))) -> prune_rule m r = prune_rule m' r.
Proof. intros H. unfold prune_rule. rewrite (prune_loop_ext m m' r H). reflexivity. Qed.
Lemma prune_loop_conds m r n : forall q o best, prune_loop m r n q o = Ok (Some (Some best)) -> (o = Some best \/ exists k, best = set_conds r (firstn k (conds r))).
Proof.
  induction n as [|n IH]; intros q o best H; cbn [prune_loop] in H; [injection H as ->; auto|]. binv H. destruct v as [v|]; [|discriminate].
  destruct (Qle_bool q v); apply IH in H; destruct H as [H|H]; auto. injection H as <-. right. exists (S n). reflexivity.
Qed.
Lemma prune_rule_conds m r s : prune_rule m r = Ok (Some s) -> exists k, conds s = firstn k (conds r).
Proof.
  unfold prune_rule. destruct (rule_isempty r); intros H; [injection H as <-; exists (length (conds r)); rewrite firstn_all; reflexivity|]. binv H. destruct v as [[b|]|]; try discriminate.
  injection H as <-. apply prune_loop_conds in E. destruct E as [E|(k & ->)]; [injection E as <-; exists (length (conds r)); rewrite firstn_all; reflexivity|exists k; reflexivity].
Qed.

(** ** the learner with a list of candidates, and with more candidates that cannot win *)
Section LEARN.
Variables (cs cs' : cond -> nat -> bool) (L : list nat) (ca ck cb : list cond).
Let G (c : cond) : Prop := In c (ca ++ cb).
Hypothesis AGREE : forall c i, G c -> In i L -> cs c i = cs' c i.
Hypothesis IDLE : forall d, In d ck -> (forall i, In i L -> cs' d i = true) \/ (forall i, In i L -> cs' d i = false) \/ exists c, In c ca /\ forall i, In i L -> cs' c i = cs' d i.
Let ok (r : rule) : Prop := forall c, In c (conds r) -> G c.
Lemma cov_same r l : ok r -> incl l L -> gcov cs r l = gcov cs' r l.
Proof. intros O I. apply filter_ext_in. intros i Ii. unfold gsat. apply forallb_ext_in. intros c Ic. apply AGREE; auto. Qed.
Lemma drop_same r l : ok r -> incl l L -> gdrop cs r l = gdrop cs' r l.
Proof. intros O I. apply filter_ext_in. intros i Ii. f_equal. unfold gsat. apply forallb_ext_in. intros c Ic. apply AGREE; auto. Qed.
Lemma drop_incl r l : incl l L -> incl (gdrop cs' r l) L. Proof. intros I i K. apply filter_In in K. apply I, K. Qed.
Lemma cov_incl r l : incl l L -> incl (gcov cs' r l) L. Proof. intros I i K. apply filter_In in K. apply I, K. Qed.
Lemma succ_same r pos neg : ok r -> incl pos L -> incl neg L -> gsucc cs (fun _ => ca ++ cb) r pos neg = gsucc cs' (fun _ => ca ++ ck ++ cb) r pos neg.
Proof.
  intros O P N. unfold gsucc. rewrite (scan_ext _ (fun s => ggain cs' r s pos neg)).
  2:{ intros s I. apply in_map_iff in I. destruct I as (c & <- & Ic). unfold ggain. assert (O' : ok (Rule_ (conds r ++ [c]))) by (intros d Id; cbn [Rule_ conds] in Id; apply in_app_or in Id; destruct Id as [Id|[<-|[] ] ]; auto).
      rewrite !(cov_same _ _ O), !(cov_same _ _ O') by auto. reflexivity. }
  rewrite !map_app. symmetry. apply scan_skip. intros s I. apply in_map_iff in I. destruct I as (d & <- & Id).
  assert (ST : forall l c, gcov cs' (Rule_ (conds r ++ [c])) l = filter (cs' c) (gcov cs' r l)).
  { intros l c. rewrite (gcov_step cs'). rewrite (gcov_conds cs' (Rule_ (conds r)) r) by reflexivity. reflexivity. }
  destruct (IDLE d Id) as [A|[A|(c & Ic & A)] ].
  - left. unfold ggain. rewrite !ST, !filter_all; [apply gain2_same| |]; intros i K; apply A; (eapply cov_incl; [|exact K]; auto).
  - left. unfold ggain. rewrite !ST. rewrite (filter_none (cs' d) (gcov cs' r pos)); [|intros i K; apply A; (eapply cov_incl; [|exact K]; auto)].
    apply Qnot_lt_le. intros K. apply gain2_gt1 in K. cbn [length] in K. lia.
  - right. exists (Rule_ (conds r ++ [c])). split; [apply in_map_iff; eauto|]. unfold ggain. rewrite !ST. rewrite !(filter_ext_in (cs' c) (cs' d)); [apply Qle_refl| |]; intros i K; apply A; (eapply cov_incl; [|exact K]; auto).
Qed.
Lemma succ_ok r pos neg s : ok r -> gsucc cs (fun _ => ca ++ cb) r pos neg = Some s -> ok s.
Proof.
  intros O H. apply gsucc_Some in H. destruct H as (a & c & b & E & -> & _). intros d I. cbn [Rule_ conds] in I. apply in_app_or in I. destruct I as [I|[<-|[] ] ]; [auto|]. unfold G. rewrite E. apply in_elt.
Qed.
Lemma halted_ok m r : ok r -> ok (halted_rule m r).
Proof.
  intros O. unfold halted_rule. destruct m; [|exact O]. destruct (conds r) as [|c t] eqn:E; [exact O|]. intros d I. apply O.
  cbn [pop_cond set_conds conds] in I. rewrite (app_removelast_last d (l := conds r)) by congruence. apply in_or_app. left. exact I.
Qed.
Lemma grow_same pos neg mc ms : incl pos L -> incl neg L -> forall fuel r, ok r -> ggrow cs fuel (fun _ => ca ++ cb) pos neg mc ms r = ggrow cs' fuel (fun _ => ca ++ ck ++ cb) pos neg mc ms r.
Proof.
  intros P N. induction fuel as [|k IH]; intros r O; [reflexivity|]. cbn [ggrow]. rewrite !(cov_same r) by auto. rewrite <- (succ_same r) by auto.
  destruct (_ =? 0); auto. destruct (user_halt _ _ _ _ _); auto. destruct (gsucc cs _ r pos neg) as [s|] eqn:S; auto. apply IH. eapply succ_ok; eauto.
Qed.
Lemma grow_ok pos neg mc ms fuel : forall r s, ok r -> ggrow cs fuel (fun _ => ca ++ cb) pos neg mc ms r = Ok s -> ok s.
Proof.
  induction fuel as [|k IH]; intros r s O H; [discriminate|]. cbn [ggrow] in H. destruct (_ =? 0); [injection H as <-; auto|].
  destruct (user_halt _ _ _ _ _); [injection H as <-; apply halted_ok; auto|]. destruct (gsucc cs _ r pos neg) as [s1|] eqn:S; [|injection H as <-; auto]. eapply IH; [|exact H]. eapply succ_ok; eauto.
Qed.
Variables (sp : nat -> list nat -> list nat * list nat) (h : hyper).
Hypothesis SP : forall t l a b, incl l L -> sp t l = (a, b) -> incl a l /\ incl b l.
Lemma girep_same fuel : forall t rs pos neg, incl pos L -> incl neg L -> girep cs (fun _ => ca ++ cb) sp h fuel t rs pos neg = girep cs' (fun _ => ca ++ ck ++ cb) sp h fuel t rs pos neg.
Proof.
  induction fuel as [|k IH]; intros t rs pos neg P N; [reflexivity|]. cbn [girep]. destruct (_ =? 0); auto. destruct (stop_early _ _ _ _ _ _ _); auto.
  destruct (sp t pos) as [pg pp] eqn:S1. destruct (sp (S t) neg) as [ng np] eqn:S2. destruct (SP _ _ _ _ P S1) as [I1 I2]. destruct (SP _ _ _ _ N S2) as [I3 I4].
  assert (O0 : ok (Rule_ [])) by (intros c []). assert (J1 : incl pg L) by (eapply incl_tran; eauto). assert (J2 : incl pp L) by (eapply incl_tran; eauto). assert (J3 : incl ng L) by (eapply incl_tran; eauto). assert (J4 : incl np L) by (eapply incl_tran; eauto).
  rewrite <- (grow_same pg ng) by auto. destruct (ggrow cs _ _ _ _ _ _ _) as [g|] eqn:GR; cbn [bind]; auto. pose proof (grow_ok _ _ _ _ _ _ _ O0 GR) as OG.
  destruct (prune_off h); [rewrite (drop_same g) by auto; apply IH; [apply drop_incl; auto|auto]|].
  rewrite (prune_rule_ext (gmetric cs pp np) (gmetric cs' pp np) g).
  2:{ intros j. unfold gmetric. assert (OJ : ok (set_conds g (firstn j (conds g)))) by (intros c I; cbn [set_conds conds] in I; apply OG; eapply firstn_In; exact I). rewrite !(cov_same _ _ OJ) by auto. reflexivity. }
  destruct (prune_rule (gmetric cs' pp np) g) as [[s|]|] eqn:PR; cbn [bind]; auto. apply prune_rule_conds in PR. destruct PR as (j & PR).
  assert (OS : ok s) by (intros c I; rewrite PR in I; apply OG; eapply firstn_In; exact I).
  unfold gprec. rewrite !(cov_same _ _ OS) by auto. destruct (bad_precision _); auto. rewrite !(drop_same s) by auto. apply IH; apply drop_incl; auto.
Qed.
Lemma girep_ok fuel : forall t rs pos neg rs' t', girep cs (fun _ => ca ++ cb) sp h fuel t rs pos neg = Ok (rs', t') -> forall r, In r rs' -> In r rs \/ ok r.
Proof.
  induction fuel as [|k IH]; intros t rs pos neg rs' t' H r I; [discriminate|]. cbn [girep] in H. destruct (_ =? 0); [injection H as <- _; auto|]. destruct (stop_early _ _ _ _ _ _ _); [injection H as <- _; auto|].
  destruct (sp t pos) as [pg pp], (sp (S t) neg) as [ng np]. binv H. assert (O0 : ok (Rule_ [])) by (intros c []). pose proof (grow_ok _ _ _ _ _ _ _ O0 E) as OG.
  assert (ADD : forall s, ok s -> In r (rs_add s rs) \/ ok r -> In r rs \/ ok r).
  { intros s OS [K|K]; [|auto]. unfold rs_add in K. apply in_app_or in K. destruct K as [K|[<-|[] ] ]; auto. }
  destruct (prune_off h); [apply (ADD _ OG); eapply IH; eauto|]. binv H. destruct v0 as [s|]; [|discriminate]. apply prune_rule_conds in E0. destruct E0 as (j & E0).
  assert (OS : ok s) by (intros c J; rewrite E0 in J; apply OG; eapply firstn_In; exact J).
  destruct (bad_precision _); [injection H as <- _; auto|]. apply (ADD _ OS). eapply IH; eauto.
Qed.
End LEARN.

(** ** two tables that agree but for a column [g] *)
From Verif Require Import RenSim RenFit.
Definition shared (g : pyval) (a b : frame) : Prop :=
  labels (frows a) = labels (frows b) /\ forall h, py_eq g h = false -> has_col a h = has_col b h /\ column a h = column b h.
Definition alike (g : pyval) (ca cb : list pyval) (r s : row) : Prop := rlab r = rlab s /\ forall h, py_eq g h = false -> cell ca h r = cell cb h s.
Lemma F2_of_nth {A B} (R : A -> B -> Prop) l : forall k, length l = length k -> (forall i x y, nth_error l i = Some x -> nth_error k i = Some y -> R x y) -> Forall2 R l k.
Proof.
  induction l as [|x l IH]; intros [|y k] L H; try discriminate; constructor; [apply (H 0); reflexivity|]. apply IH; [cbn in L; lia|]. intros i u v U V. apply (H (S i)); assumption.
Qed.
Lemma cell_nth a h i r : good_frame a -> nth_error (frows a) i = Some r -> cell (fcols a) h r = if has_col a h then nth_error (column a h) i else None.
Proof.
  intros G N. destruct (has_col a h) eqn:H.
  - rewrite column_nth, N by auto. cbn [option_map]. unfold cell_or. destruct (cell_some a h r (proj1 G) H (nth_error_In _ _ N)) as (v & ->). reflexivity.
  - unfold cell. destruct (col_pos (fcols a) h) as [j|] eqn:J; [|reflexivity]. exfalso. apply col_pos_spec in J. destruct J as (c & C & Q). assert (K : has_col a h = true); [|congruence]. apply existsb_exists. exists c. split; auto. eapply nth_error_In; eauto.
Qed.
Lemma shared_rows g a b : good_frame a -> good_frame b -> shared g a b -> Forall2 (alike g (fcols a) (fcols b)) (frows a) (frows b).
Proof.
  intros A B (L & C). assert (LL : length (frows a) = length (frows b)) by (apply (f_equal (@length nat)) in L; unfold labels in L; rewrite !map_length in L; exact L).
  apply F2_of_nth; [exact LL|]. intros i r s R S. split.
  - apply (f_equal (fun l => nth_error l i)) in L. unfold labels in L. rewrite !nth_error_map, R, S in L. cbn [option_map] in L. congruence.
  - intros h H. destruct (C h H) as [C1 C2]. rewrite (cell_nth a h i r A R), (cell_nth b h i s B S), C1, C2. reflexivity.
Qed.
Lemma alike_eq g ca cb r s h v : alike g ca cb r s -> py_eq g h = false -> cell_eq ca h v r = cell_eq cb h v s.
Proof. intros [_ K] H. unfold cell_eq. rewrite (K h H). reflexivity. Qed.
Lemma F2_labels g ca cb l k : Forall2 (alike g ca cb) l k -> labels l = labels k.
Proof. intros F. induction F as [|r s l k [R _] F IH]; [reflexivity|]. unfold labels in *. cbn [map]. congruence. Qed.

Lemma present_in x h : column_present x h -> has_col x h = true. Proof. apply has_col_iff. Qed.
Lemma has_drop a f x h : good_frame a -> drop_col a f = Ok x -> has_col x h = has_col a h && negb (py_eq f h).
Proof.
  intros G D. apply Bool.eq_true_iff_eq. destruct (drop_col_values _ _ _ G D) as [P _]. rewrite Bool.andb_true_iff, Bool.negb_true_iff. split.
  - intros H. apply has_col_iff, P in H. destruct H as [H1 H2]. split; [apply has_col_iff; auto|auto].
  - intros [H1 H2]. apply has_col_iff. apply P. split; [apply has_col_iff; auto|auto].
Qed.
Lemma column_none x h : has_col x h = false -> column x h = [].
Proof.
  intros H. unfold column. assert (E : forall r, cell (fcols x) h r = None).
  { intros r. unfold cell. destruct (col_pos (fcols x) h) as [j|] eqn:J; [|reflexivity]. exfalso. apply col_pos_spec in J. destruct J as (c & C & Q). assert (K : has_col x h = true); [|congruence]. apply existsb_exists. exists c. split; auto. eapply nth_error_In; eauto. }
  induction (frows x) as [|r l IH]; [reflexivity|]. cbn [flat_map]. rewrite E, IH. reflexivity.
Qed.
Lemma column_drop a f x h : good_frame a -> drop_col a f = Ok x -> py_eq f h = false -> column x h = column a h.
Proof.
  intros G D F. assert (HX := has_drop a f x h G D). rewrite F, Bool.andb_true_r in HX. destruct (has_col a h) eqn:H; [|rewrite !column_none by auto; reflexivity].
  destruct (drop_col_good _ _ _ G D) as (GX & LX & _). destruct (drop_col_values _ _ _ G D) as [_ V]. apply nth_error_ext. intros i. 
  assert (LL := drop_len _ _ _ D). destruct (nth_error (frows a) i) as [r|] eqn:R.
  - destruct (nth_same_len (frows x) (frows a) i r LL R) as (s & S). destruct (cell_some a h r (proj1 G) H (nth_error_In _ _ R)) as (v & Cv). apply cell_value_at in Cv; [|apply G].
    assert (Cx := proj2 (V i r s R S h v F) Cv). apply (value_column a h i r v G H R) in Cv. apply (value_column x h i s v GX HX S) in Cx. congruence.
  - assert (S : nth_error (frows x) i = None) by (apply nth_error_None; rewrite LL; apply nth_error_None; exact R). rewrite !column_nth, R, S by auto. reflexivity.
Qed.
Lemma shared_drop g f a b x y : good_frame a -> good_frame b -> shared g a b -> drop_col a f = Ok x -> drop_col b f = Ok y -> shared g x y.
Proof.
  intros A B (L & C) X Y. split; [rewrite (drop_labels_same _ _ _ X), (drop_labels_same _ _ _ Y); exact L|]. intros h H. destruct (C h H) as [C1 C2]. rewrite (has_drop a f x h A X), (has_drop b f y h B Y), C1. split; [reflexivity|].
  destruct (py_eq f h) eqn:F; [|rewrite (column_drop a f x h), (column_drop b f y h) by auto; exact C2].
  rewrite !column_none; [reflexivity| |]; [rewrite (has_drop b f y h B Y)|rewrite (has_drop a f x h A X)]; rewrite F; apply Bool.andb_false_r.
Qed.
Lemma shared_xsat g x y c i : good_frame x -> good_frame y -> shared g x y -> py_eq g (cfeat c) = false -> xsat x c i = xsat y c i.
Proof.
  intros X Y S H. unfold xsat, lab_sat. apply (F2_existsb (alike g (fcols x) (fcols y))); [|apply shared_rows; auto]. intros r s R. f_equal; [destruct R as [-> _]; reflexivity|].
  unfold conds_sat. cbn [forallb]. f_equal. apply (alike_eq g); auto.
Qed.
Lemma shared_split g f p a b x1 x2 y1 y2 : good_frame a -> good_frame b -> shared g a b -> py_eq g f = false -> pos_neg_split a f p = Ok (x1, x2) -> pos_neg_split b f p = Ok (y1, y2) ->
  labels (frows x1) = labels (frows y1) /\ labels (frows x2) = labels (frows y2).
Proof.
  intros A B S H E1 E2. unfold pos_neg_split in E1, E2. destruct (has_col a f); [|discriminate]. destruct (has_col b f); [|discriminate]. injection E1 as <- <-. injection E2 as <- <-. cbn [with_rows frows].
  assert (R := shared_rows _ _ _ A B S). split; (eapply (F2_labels g (fcols a) (fcols b)); apply Forall2_filter; [|exact R]); intros r s K; [|f_equal]; apply (alike_eq g); auto.
Qed.

(** *** recalibration *)
Section RECAL.
Variables (g f p : pyval) (a b : frame).
Hypotheses (A : good_frame a) (B : good_frame b) (SH : shared g a b) (GF : py_eq g f = false).
Definition pr (c d : frame) : Prop := fcols c = fcols a /\ fcols d = fcols b /\ Forall2 (alike g (fcols a) (fcols b)) (frows c) (frows d).
Lemma pr_ab : pr a b. Proof. split; [auto|]. split; [auto|]. apply shared_rows; auto. Qed.
Definition apart (r : rule) : Prop := forall c, In c (conds r) -> py_eq g (cfeat c) = false.
Lemma pr_has c d h : pr c d -> py_eq g h = false -> has_col c h = has_col d h.
Proof. intros (C & D & _) H. unfold has_col. rewrite C, D. apply (proj1 (proj2 SH h H)). Qed.
Lemma pr_conds cs : (forall c, In c cs -> py_eq g (cfeat c) = false) -> forall c d, pr c d -> rres pr (conds_cover cs c) (conds_cover cs d).
Proof.
  induction cs as [|x cs IH]; intros H c d K; cbn [conds_cover]; [exact K|]. unfold cond_covers, select_eq. rewrite (pr_has c d (cfeat x) K) by (apply H; left; auto).
  destruct (has_col d (cfeat x)); cbn [bind]; [|reflexivity]. apply IH; [intros; apply H; right; auto|]. destruct K as (C & D & F). split; [auto|]. split; [auto|]. cbn [frows with_rows]. rewrite C, D.
  apply Forall2_filter; [|exact F]. intros r s R. apply (alike_eq g); auto. apply H. left. auto.
Qed.
Lemma pr_len c d : pr c d -> length (frows c) = length (frows d). Proof. intros (_ & _ & F). apply (Forall2_length _ _ _ F). Qed.
Lemma pr_pos c d : pr c d -> num_pos c f p = num_pos d f p.
Proof.
  intros K. unfold num_pos. rewrite (pr_has c d f K GF). destruct K as (C & D & F). destruct (has_col d f); [|reflexivity]. f_equal. unfold pos_rows. rewrite C, D. eapply Forall2_length. apply Forall2_filter; [|exact F].
  intros r s R. apply (alike_eq g); auto.
Qed.
Lemma pr_neg c d : pr c d -> num_neg c f p = num_neg d f p.
Proof.
  intros K. unfold num_neg. rewrite (pr_has c d f K GF). destruct K as (C & D & F). destruct (has_col d f); [|reflexivity]. f_equal. unfold neg_rows. rewrite C, D. eapply Forall2_length. apply Forall2_filter; [|exact F].
  intros r s R. f_equal. apply (alike_eq g); auto.
Qed.
Lemma pr_stats alpha r : apart r -> rule_class_stats alpha a f p r = rule_class_stats alpha b f p r.
Proof.
  intros H. unfold rule_class_stats, rule_covers. pose proof (pr_conds _ H _ _ pr_ab) as K. destruct (conds_cover (conds r) a) as [c|], (conds_cover (conds r) b) as [d|]; cbn [rres] in K; try contradiction; [|congruence].
  cbn [bind]. rewrite (pr_pos _ _ K), (pr_len _ _ K). reflexivity.
Qed.
Lemma pr_covers rs : (forall r, In r rs -> apart r) -> rres pr (rs_covers rs a) (rs_covers rs b).
Proof.
  intros H. unfold rs_covers. destruct (rs_isuniversal rs); [apply pr_ab|]. destruct (rs_isnull rs); [split; [auto|]; split; [auto|constructor]|].
  eapply rres_bind with (R := Forall2 pr).
  - apply (mapM_rel (fun r s => r = s /\ apart r)); [intros r ? [<- K]; apply pr_conds; [exact K|apply pr_ab]|]. clear -H. induction rs; constructor; [split; auto; apply H; left; auto|apply IHrs; intros; apply H; right; auto].
  - intros u v K. split; [auto|]. split; [auto|]. cbn [frows with_rows]. clear -K. induction K as [|c d x y (_ & _ & K) H IH]; [constructor|]. cbn [map concat]. apply Forall2_app; auto.
Qed.
Lemma pr_recal alpha x y : rs_rules x = rs_rules y -> (forall r, In r (rs_rules x) -> apart r) ->
  rres (fun x' y' => rs_rules x' = rs_rules y' /\ rs_uncov x' = rs_uncov y' /\ map conds (rs_rules x') = map conds (rs_rules x)) (recalibrate alpha x a f p) (recalibrate alpha y b f p).
Proof.
  intros E H. unfold recalibrate. rewrite <- E.
  assert (SF : forall l, (forall h, In h l -> py_eq g h = false) -> check_features a l = check_features b l).
  { intros l K. unfold check_features. rewrite (forallb_ext_in (has_col a) (has_col b)); [reflexivity|]. intros h I. apply (proj2 SH h). auto. }
  rewrite SF. 2:{ intros h I. unfold selected_features in I. apply dedup_by_In in I. apply in_flat_map in I. destruct I as (r & I & K). apply in_map_iff in K. destruct K as (c & <- & K). apply (H r I c K). }
  eapply rres_bind; [apply rres_refl|]. intros _ _ _.
  assert (M : mapM (rule_class_stats alpha a f p) (rs_rules x) = mapM (rule_class_stats alpha b f p) (rs_rules x)) by (apply mapM_ext; intros r I; apply pr_stats; auto).
  rewrite M. destruct (mapM (rule_class_stats alpha b f p) (rs_rules x)) as [la|] eqn:ML; cbn [bind]; [|reflexivity].
  eapply rres_bind; [apply (pr_covers _ H)|]. intros ca cb K.
  assert (U : pr (with_rows a (drop_labels (frows a) (labels (frows ca)))) (with_rows b (drop_labels (frows b) (labels (frows cb))))).
  { split; [auto|]. split; [auto|]. cbn [frows with_rows]. unfold drop_labels. apply Forall2_filter; [|apply shared_rows; auto]. intros r s [R _]. rewrite R, (F2_labels g (fcols a) (fcols b) _ _ (proj2 (proj2 K))). reflexivity. }
  rewrite <- (pr_neg _ _ U), <- (pr_len _ _ U). eapply rres_bind; [apply rres_refl|]. intros n ? <-. eapply rres_bind; [apply rres_refl|]. intros q ? <-. cbn [rres rs_rules rs_uncov]. split; [auto|]. split; [auto|].
  clear -ML. revert la ML. induction (rs_rules x) as [|r l IH]; intros la ML; cbn [mapM] in ML; [injection ML as <-; reflexivity|]. binv ML. binv ML. injection ML as <-. cbn [map]. f_equal; [|apply IH; auto].
  unfold rule_class_stats in E. binv E. binv E. binv E. injection E as <-. reflexivity.
Qed.
End RECAL.

(** ** binning works column by column *)
From Verif Require Import FitFacts DiscFacts Prop_Bins.
Definition bins_of (cut : Z -> list pyval -> list edge) (nb : option Z) (col : list pyval) : option (list str) :=
  match nb with
  | None => None
  | Some n => if (n =? 0)%Z then None else if is_numeric_col col && (n <? Z.of_nat (length (unique col)))%Z
              then match fit_labels (pandas_bins (cut n col) col) with Ok b => if 2 <=? length b then Some b else None | Err _ => None end else None
  end.
Definition binned_col (cut : Z -> list pyval -> list edge) (nb : option Z) (col : list pyval) : list pyval :=
  match bins_of cut nb col with Some b => match transform_pandas b col with Ok vs => vs | Err _ => [] end | None => col end.
Lemma bins_In cut nb df ignore bt : nbins_ok nb -> fit_bins cut nb df ignore = Ok bt -> exists bins, bt = mkbt (Some bins) [] /\
  forall h b, In (h, b) bins <-> In h (fcols df) /\ existsb (fun g => py_eq g h) ignore = false /\ bins_of cut nb (column df h) = Some b.
Proof.
  intros N H. unfold fit_bins in H. set (m := match nb with Some n => n | None => 0%Z end) in *.
  assert (N0 : (m <? -1)%Z = false /\ (m <? 0)%Z = false) by (unfold m; destruct nb; cbn in N; split; apply Z.ltb_ge; lia). destruct N0 as [N1 N2]. rewrite N1, N2 in H. cbn [bind] in H.
  binv H. rename v into bs, E into EM. injection H as <-. eexists. split; [reflexivity|]. destruct (mapM_keys _ _ _ EM) as [K1 K2].
  assert (FC : forall h, In h (find_continuous_feats nb df ignore) <-> In h (fcols df) /\ existsb (fun g => py_eq g h) ignore = false /\ nb = Some m /\ m <> 0%Z /\ is_numeric_col (column df h) = true /\ (m < Z.of_nat (length (unique (column df h))))%Z).
  { intros h. unfold find_continuous_feats, m. destruct nb as [n|]; [|split; [intros []|intros (_ & _ & K & _); discriminate K] ].
    destruct (Z.eqb_spec n 0) as [->|NZ]; [split; [intros []|intros (_ & _ & _ & K & _); congruence]|]. rewrite filter_In, !Bool.andb_true_iff, Bool.negb_true_iff, Z.ltb_lt. tauto. }
  intros h b. rewrite filter_In. cbn [snd]. rewrite Nat.leb_le. split.
  - intros [I L]. destruct (K2 h b I) as [K3 K4]. apply FC in K3. destruct K3 as (I1 & I2 & I3 & I4 & I5 & I6). split; [auto|]. split; [auto|]. unfold bins_of. rewrite I3.
    destruct (Z.eqb_spec m 0); [contradiction|]. rewrite I5. cbn [andb]. replace (m <? _)%Z with true by (symmetry; apply Z.ltb_lt; exact I6). rewrite K4. replace (2 <=? length b) with true by (symmetry; apply Nat.leb_le; exact L). reflexivity.
  - intros (I1 & I2 & I3). unfold bins_of in I3. destruct nb as [n|]; [|discriminate]. subst m. destruct (Z.eqb_spec n 0) as [->|NZ]; [discriminate|].
    destruct (is_numeric_col (column df h)) eqn:NU; [|discriminate]. cbn [andb] in I3. destruct (Z.ltb_spec n (Z.of_nat (length (unique (column df h))))) as [LT|]; [|discriminate].
    destruct (fit_labels _) as [b'|] eqn:FL; [|discriminate]. destruct (Nat.leb_spec 2 (length b')); [|discriminate]. injection I3 as ->.
    assert (IC : In h (find_continuous_feats (Some n) df ignore)) by (apply FC; auto 7). rewrite <- K1 in IC. apply in_map_iff in IC. destruct IC as ((h' & b') & EH & IB). cbn [fst] in EH. subst h'.
    destruct (K2 h b' IB) as [_ K4]. assert (b' = b) by congruence. subst b'. split; auto.
Qed.
Lemma binned_columns cut nb df f bt df' : cuts_ok cut -> nbins_ok nb -> good_frame df -> fit_transform cut nb df [f] = Ok (bt, df') ->
  fcols df' = fcols df /\ labels (frows df') = labels (frows df) /\ good_frame df' /\ (forall h, py_eq f h = true -> column df' h = column df h) /\
  forall h, py_eq f h = false -> column df' h = binned_col cut nb (column df h).
Proof.
  intros C N G H. unfold fit_transform in H. binv H. rename v into b0. binv H. rename v into d0. injection H as -> ->.
  destruct (fit_bins_ok cut nb df [f] C N (proj2 G)) as (bins & EB & DK & BK). rewrite EB in E. injection E as <-. destruct (bins_In _ _ _ _ _ N EB) as (bins' & Q & BI). injection Q as <-.
  destruct (transform_spec (mkbt (Some bins) []) bins df df' eq_refl DK (proj1 G) E0) as (T1 & T2 & T3 & T4 & _ & T6). split; [auto|]. split; [auto|]. split; [split; [auto|rewrite T1; apply G]|]. split.
  - intros h Fh. apply T6. intros h' b I. apply BI in I. destruct I as (_ & I & _). rewrite ignored_one in I. apply Bool.not_true_iff_false. intros K. assert (py_eq f h' = true); [|congruence]. eapply py_eq_trans; [exact Fh|]. rewrite py_eq_sym. exact K.
  - intros h Fh. unfold binned_col. destruct (bins_of cut nb (column df h)) as [b|] eqn:BO.
    + destruct (has_col df h) eqn:HC.
      2:{ exfalso. rewrite column_none in BO by auto. unfold bins_of in BO. destruct nb as [n|]; [|discriminate]. cbn in N. destruct (Z.eqb_spec n 0); [discriminate|]. cbn in BO. destruct (Z.ltb_spec n 0); [lia|discriminate]. }
      apply has_col_iff in HC. destruct HC as (h' & I' & Q'). assert (I : In (h', b) bins).
      { apply BI. split; [auto|]. rewrite ignored_one, (column_eq df h h' Q'). split; [|auto]. apply Bool.not_true_iff_false. intros K. assert (py_eq f h = true); [|congruence]. eapply py_eq_trans; eauto. }
      destruct (T4 h' b I) as (vs & V1 & V2). { apply existsb_exists. exists h'. split; [auto|]. apply (py_eq_refl_l _ _ Q'). } { apply numeric_not_text. apply (BK h' b I). }
      rewrite <- (column_eq df' h h' Q'), V2. unfold transform_feat in V1. cbn [bt_thresholds assoc find option_map] in V1. rewrite (column_eq df h h' Q') in V1. rewrite V1. reflexivity.
    + apply T6. intros h' b I. apply Bool.not_true_iff_false. intros Q'. apply BI in I. destruct I as (_ & _ & I). rewrite (column_eq df h h' Q') in I. congruence.
Qed.

(** ** IREP on both tables *)
Lemma xsat_cell x c i r : good_frame x -> NoDup (labels (frows x)) -> nth_error (frows x) i = Some r -> xsat x c (rlab r) = cell_eq (fcols x) (cfeat c) (cval c) r.
Proof. intros G N R. rewrite xsat_row by (auto; eapply nth_error_In; eauto). reflexivity. Qed.
Lemma train_more e h df df' f p xi g A B x p1 n1 p1' n1' x' p2 n2 p2' n2' :
  setting e h df f p x p1 n1 p1' n1' -> setting e h df' f p x' p2 n2 p2' n2' -> shared g df df' -> py_eq g f = false ->
  fcols x = A ++ B -> fcols x' = A ++ g :: B -> (forall k, In k (A ++ B) -> py_eq g k = false) ->
  (forall v, In v (unique (column x' g)) -> (forall i, In i (labels (frows x')) -> xsat x' (mkcond g v) i = true) \/ (forall i, In i (labels (frows x')) -> xsat x' (mkcond g v) i = false) \/
     exists k u, In k A /\ In u (unique (column x' k)) /\ forall i, In i (labels (frows x')) -> xsat x' (mkcond k u) i = xsat x' (mkcond g v) i) ->
  rres (fun a b => rs_rules a = rs_rules b /\ rs_uncov a = rs_uncov b /\ forall r, In r (rs_rules a) -> In r (rs_rules xi) \/ apart g r)
    (irep_train e h true df f p xi) (irep_train e h true df' f p xi).
Proof.
  intros ST ST' SH GF FX FX' AP ID.
  assert (GD : good_frame df) by (apply (s_good _ _ _ _ _ _ _ _ _ _ ST)). assert (GD' : good_frame df') by (apply (s_good _ _ _ _ _ _ _ _ _ _ ST')).
  destruct (@st_xgood _ _ _ _ _ _ _ _ _ _ ST) as (GX & _ & NX & _). destruct (@st_xgood _ _ _ _ _ _ _ _ _ _ ST') as (GX' & _ & NX' & _).
  assert (SX : shared g x x') by (eapply shared_drop; [exact GD|exact GD'|exact SH|apply (s_x _ _ _ _ _ _ _ _ _ _ ST)|apply (s_x _ _ _ _ _ _ _ _ _ _ ST')]).
  destruct (shared_split g f p df df' _ _ _ _ GD GD' SH GF (s_split _ _ _ _ _ _ _ _ _ _ ST) (s_split _ _ _ _ _ _ _ _ _ _ ST')) as [LP LN].
  set (ca := flat_map (fun k => map (mkcond k) (unique (column x' k))) A). set (cb := flat_map (fun k => map (mkcond k) (unique (column x' k))) B). set (ck := map (mkcond g) (unique (column x' g))).
  assert (C1 : cand_conds e true x (old_possible xi) p1' n1' = ca ++ cb).
  { unfold cand_conds, cn_possible_conds. rewrite FX, flat_map_app. assert (FE : forall l, (forall k, In k l -> py_eq g k = false) -> flat_map (fun k => map (mkcond k) (unique (column x k))) l = flat_map (fun k => map (mkcond k) (unique (column x' k))) l).
    { induction l as [|k l IH]; intros Hl; [reflexivity|]. cbn [flat_map]. rewrite (proj2 (proj2 SX k (Hl k (or_introl eq_refl)))), IH; auto. intros; apply Hl; right; auto. }
    f_equal; apply FE; intros k I; apply AP, in_or_app; auto. }
  assert (C2 : cand_conds e true x' (old_possible xi) p2' n2' = ca ++ ck ++ cb) by (unfold cand_conds, cn_possible_conds; rewrite FX', flat_map_app; reflexivity).
  assert (AG : forall c, In c (ca ++ cb) -> py_eq g (cfeat c) = false).
  { intros c I. apply AP. apply in_app_or in I. destruct I as [I|I]; apply in_flat_map in I; destruct I as (k & I & J); apply in_map_iff in J; destruct J as (v & <- & _); apply in_or_app; auto. }
  rewrite (@irep_train_lab _ _ _ _ _ _ _ _ _ _ ST), (@irep_train_lab _ _ _ _ _ _ _ _ _ _ ST'), C1, C2. unfold lab_girep. rewrite LP, LN.
  assert (IP : incl (labels (frows p2)) (labels (frows x')) /\ incl (labels (frows n2)) (labels (frows x'))) by apply (@st_in _ _ _ _ _ _ _ _ _ _ ST').
  assert (GS : girep (xsat x) (fun _ => ca ++ cb) (fun t l => random_split e t (grow_size h) l) h (S (length (labels (frows p2)))) 0 (rs_rules xi) (labels (frows p2)) (labels (frows n2)) =
    girep (xsat x') (fun _ => ca ++ ck ++ cb) (fun t l => random_split e t (grow_size h) l) h (S (length (labels (frows p2)))) 0 (rs_rules xi) (labels (frows p2)) (labels (frows n2))).
  { apply (girep_same (xsat x) (xsat x') (labels (frows x')) ca ck cb); [| | |apply IP|apply IP].
  -  intros c i I _. apply (shared_xsat g); auto.
  -  intros d I. apply in_map_iff in I. destruct I as (v & <- & I). destruct (ID v I) as [K|[K|(k & u & K1 & K2 & K3)] ]; [auto|auto|]. right. right. exists (mkcond k u). split; [|auto]. apply in_flat_map. exists k. split; [auto|]. apply in_map. auto.
  -  intros t l a b L0 SP. destruct (lab_sp_ok e h x' (s_env _ _ _ _ _ _ _ _ _ _ ST) (s_prune0 _ _ _ _ _ _ _ _ _ _ ST) (s_prune1 _ _ _ _ _ _ _ _ _ _ ST)) as [_ Q _ _].
      specialize (Q t l a b L0 SP). split; intros i I; eapply Permutation_in; try exact Q; apply in_or_app; auto.
  }
  rewrite GS.
  destruct (girep (xsat x') _ _ _ _ _ _ _ _) as [[rs t']|] eqn:GI; cbn [bind rres]; [|reflexivity]. cbn [rs_rules rs_uncov]. split; [auto|]. split; [auto|].
  intros r I. destruct (girep_ok (xsat x) ca cb _ _ _ _ _ _ _ _ _ GS r I) as [K|K]; [auto|]. right. intros c Ic. apply AG. apply K. exact Ic.
Qed.
