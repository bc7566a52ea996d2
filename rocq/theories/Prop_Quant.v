(** * Prop_Quant.v : C102 -- numeric columns are cut at the quantiles of the training values *)
From Verif Require Import TrainSpec TrainView ClfFacts FitFacts FitRun PrepFacts Prop_Fit Prop_FitModel Prop_Helpers Prop_Train Prop_Cut Demo.
From Verif Require Import BinSpec QuantSpec Cut CutFacts Prop_Bins QuantFacts QuantTies.
From Coq Require Import Lqa Sorted Qabs.
Open Scope nat_scope.

(** the bins stored for a column *)
Lemma stored_bins n df ignore bt g b : (0 <= n)%Z -> fit_bins pandas_cut (Some n) df ignore = Ok bt -> bins_for bt g b ->
  fit_labels (pandas_bins (pandas_cut n (column df g)) (column df g)) = Ok b.
Proof.
  intros N0 H (bins & g' & EB & I & Q). unfold fit_bins in H. destruct (Z.ltb_spec n (-1)); [lia|]. destruct (Z.ltb_spec n 0); [lia|]. cbn [bind] in H. binv H. rename v into bs, E into EM. injection H as <-. cbn [bt_bins] in EB. injection EB as <-.
  apply filter_In in I. destruct I as [I _]. destruct (mapM_keys _ _ _ EM) as [_ K]. destruct (K g' b I) as [_ FL].
  rewrite (column_eq df g g' Q) in FL. exact FL.
Qed.
Lemma fit_stored w cl X y cf pc names init cnopt kw f vs ix cl' fr : w_cut w = pandas_cut -> training_input X y cf names f vs ix -> table_of X names fr ->
  fit w cl X y cf pc names init cnopt kw = (cl', Ok tt) ->
  forall n g cs, h_nbins (hyper_of cl kw) = Some n -> (2 <= n)%Z -> column_present fr g -> py_eq f g = false -> column_values fr g cs -> numeric cs -> ~ In PNaN cs -> more_than n cs ->
  exists bt labels, c_bt cl' = Some bt /\ bins_for bt g labels /\ fit_labels (pandas_bins (pandas_cut n cs) cs) = Ok labels.
Proof.
  intros WC T TB H n g cs EN N2 PG NG CV NU NM MT.
  destruct (C79_bins_of_fit_partial w cl X y cf pc names init cnopt kw f vs ix cl' fr WC T TB) as (bt & EBT & _ & _ & B3); [right; exists n; split; auto; lia|exact H|].
  destruct (B3 g n cs EN N2 PG NG CV NU NM MT) as (labels & BF). exists bt, labels. split; auto. split; auto.
  destruct (fit_fitted _ _ _ _ _ _ _ _ _ _ _ H) as (df & f' & p & bt' & xi & x1 & x2 & FT). assert (PRE := ft_pre _ _ _ _ _ _ _ _ _ _ _ _ _ _ _ _ _ _ FT).
  assert (EB2 := ft_bt _ _ _ _ _ _ _ _ _ _ _ _ _ _ _ _ _ _ FT). assert (bt' = bt) as -> by congruence.
  destruct (input_pre _ _ _ _ _ _ _ T) as (df0 & G & HC & EC & EL & NE & TD & PR). rewrite PR, WC in PRE. binv PRE. clear E. binv PRE. destruct v0 as [bt' df']. injection PRE as _ _ _ ->.
  destruct (raw_view _ _ _ _ _ _ _ _ _ T TB TD) as (GF & NF & FF & LV & LD & CP & _ & CELL).
  unfold fit_transform in E. binv E. rename v0 into bt0. binv E. injection E as -> _. change (fit_nbins cl kw) with (h_nbins (hyper_of cl kw)) in E0. rewrite EN in E0.
  assert (CV0 : column_values df0 g cs).
  { destruct CV as [LC CV]. split; [congruence|]. intros i rd u Rd V. destruct (nth_same _ (frows fr) i rd LD Rd) as (rw & R). apply (CELL i rw rd R Rd g u NG). eapply CV; eauto. }
  assert (PD : column_present df0 g) by (apply CP; auto). destruct (col_values df0 g cs G PD CV0) as [_ EG]. rewrite <- EG. eapply stored_bins; eauto. lia.
Qed.
Lemma ranked_no_nan cs s : ranked cs s -> ~ In PNaN cs.
Proof. intros RK I. assert (K := ranked_present cs s RK). apply Bool.not_true_iff_false in K. apply K. apply existsb_exists. exists PNaN. auto. Qed.

(** ** C102: after fit with n_discretize_bins = n, a numeric column of more than n values, all different, has exactly n bins, without
    gaps, and the limit between the i-th and the next is the i-th n-quantile of the training values, up to half a hundredth. *)
Theorem C102_limits_are_quantiles : forall w cl X y cf pc names init cnopt kw f vs ix cl' fr n g cs s,
  w_cut w = pandas_cut -> training_input X y cf names f vs ix -> table_of X names fr ->
  h_nbins (hyper_of cl kw) = Some n -> (2 <= n)%Z ->
  column_present fr g -> py_eq f g = false -> column_values fr g cs -> numeric cs -> ranked cs s -> (n < Z.of_nat (length s))%Z ->
  fit w cl X y cf pc names init cnopt kw = (cl', Ok tt) ->
  exists bt ivs limits, c_bt cl' = Some bt /\ bins_for bt g (map label ivs) /\ adjoining ivs limits /\ (Z.of_nat (length ivs) = n)%Z /\
    forall i b, nth_error limits i = Some b -> exists x, quantile_of s (Z.to_nat n) (S i) x /\ near b x.
Proof.
  intros w cl X y cf pc names init cnopt kw f vs ix cl' fr n g cs s WC T TB EN N2 PG NG CV NU RK NM H.
  destruct (fit_stored _ _ _ _ _ _ _ _ _ _ _ _ _ _ _ WC T TB H n g cs EN N2 PG NG CV NU (ranked_no_nan _ _ RK) (ranked_more _ _ _ RK NU NM)) as (bt & labels & EB & BF & FL).
  destruct (quantile_bins cs s n RK N2 NM) as (ivs & limits & E & AD & LL & LI & INC & LIM). assert (labels = map label ivs) as -> by congruence.
  exists bt, ivs, limits. split; auto. split; auto. split; auto. split; [lia|]. intros i b B. destruct (LIM i b B) as (y0 & Y & D & _).
  assert (IL : i < length limits) by (apply nth_error_Some; congruence).
  exists (quantile s (Z.to_nat n) (S i)). split; [apply quant_spec; lia|]. exists y0. auto.
Qed.
Print Assumptions C102_limits_are_quantiles.

(** ** C102: if rounding the inner quantiles to hundredths moves no training value to another bin, every bin holds (m-1)/n training values
    or one more (m: the number of values), so that any two bins differ by one example at most. Partial: [settled] is needed, and all
    values different. *)
Theorem C102_balanced_partial : forall w cl X y cf pc names init cnopt kw f vs ix cl' fr n g cs s,
  w_cut w = pandas_cut -> training_input X y cf names f vs ix -> table_of X names fr ->
  h_nbins (hyper_of cl kw) = Some n -> (2 <= n)%Z ->
  column_present fr g -> py_eq f g = false -> column_values fr g cs -> numeric cs -> ranked cs s -> (n < Z.of_nat (length s))%Z ->
  (forall i x, 0 < i < Z.to_nat n -> quantile_of s (Z.to_nat n) i x -> settled s x) ->
  fit w cl X y cf pc names init cnopt kw = (cl', Ok tt) ->
  exists bt ivs blocks, c_bt cl' = Some bt /\ bins_for bt g (map label ivs) /\ (Z.of_nat (length ivs) = n)%Z /\ ascending ivs /\ shared_out s ivs blocks /\
    forall block, In block blocks -> length block = (length s - 1) / Z.to_nat n \/ length block = S ((length s - 1) / Z.to_nat n).
Proof.
  intros w cl X y cf pc names init cnopt kw f vs ix cl' fr n g cs s WC T TB EN N2 PG NG CV NU RK NM SET H.
  destruct (fit_stored _ _ _ _ _ _ _ _ _ _ _ _ _ _ _ WC T TB H n g cs EN N2 PG NG CV NU (ranked_no_nan _ _ RK) (ranked_more _ _ _ RK NU NM)) as (bt & labels & EB & BF & FL).
  destruct (quantile_bins cs s n RK N2 NM) as (ivs & limits & E & AD & LL & LI & INC & LIM). assert (labels = map label ivs) as -> by congruence. set (q := Z.to_nat n) in *.
  assert (SS := proj1 RK). assert (Q0 : 0 < q) by lia. assert (QM : q < length s) by lia.
  assert (SIDE : forall i b x, nth_error limits i = Some b -> In x s -> ((quantile s q (S i) < x)%Q -> below b x) /\ ((x <= quantile s q (S i))%Q -> at_most x b)).
  { intros i b x B I. destruct (LIM i b B) as (y0 & Y & D & EXA). assert (IL : i < length limits) by (apply nth_error_Some; congruence). unfold below, at_most. rewrite Y.
    destruct (SET (S i) (quantile s q (S i))) as [(z & Z)|FAR]; [lia|apply quant_spec; lia| |].
    - rewrite (EXA z Z). auto.
    - specialize (FAR x I). revert D FAR. generalize (quantile s q (S i)). intros u D FAR. apply Qabs_Qle_condition in D. split; intros K.
      + rewrite Qabs_pos in FAR by lra. lra.
      + rewrite Qabs_neg in FAR by lra. lra. }
  exists bt, ivs, (map (part s q) (seq 0 q)). split; auto. split; auto. split; [lia|]. split; [|split].
  - eapply adjoining_ascending; eauto.
  - split; [apply parts_all; auto|]. destruct AD as [A1 A2].
    assert (F : forall k, k <= q -> Forall2 (fun iv block => forall x, In x block -> contains iv x) (firstn k ivs) (map (part s q) (seq 0 k))).
    { induction k as [|k IH]; intros K; [constructor|]. destruct (nth_error ivs k) as [iv|] eqn:EI; [|apply nth_error_None in EI; lia].
      rewrite seq_S, map_app, (firstn_snoc _ _ _ EI). apply Forall2_app; [apply IH; lia|]. constructor; [|constructor]. cbn [plus]. intros x I. destruct (part_in s q SS Q0 QM k x ltac:(lia) I) as (IX & LO & HI).
      assert (H1 : nth_error (map fst ivs) k = Some (fst iv)) by (rewrite nth_error_map, EI; reflexivity). assert (H2 : nth_error (map snd ivs) k = Some (snd iv)) by (rewrite nth_error_map, EI; reflexivity).
      rewrite A1 in H1. rewrite A2 in H2. split.
      - destruct k as [|k]; cbn [nth_error] in H1; [injection H1 as <-; exact Logic.I|]. apply (SIDE k _ x H1 IX). apply LO. lia.
      - destruct (Nat.eq_dec k (length limits)) as [->|NE]; [rewrite nth_error_app2, Nat.sub_diag in H2 by lia; injection H2 as <-; exact Logic.I|].
        rewrite nth_error_app1 in H2 by lia. apply (SIDE k _ x H2 IX). replace (S k) with (k + 1) by lia. exact HI. }
    specialize (F q (le_n q)). rewrite <- LI in F at 1. rewrite firstn_all in F. exact F.
  - intros block I. apply in_map_iff in I. destruct I as (i & <- & I). apply in_seq in I. apply part_size; auto. lia.
Qed.
Print Assumptions C102_balanced_partial.

(** ** examples: seven different numbers in three bins of 3, 2 and 2 *)
Definition one_column (vs : list pyval) : frame :=
  mkframe [s_ "v"; s_ "t"] (map (fun p => mkrow (fst p) [snd p; PInt (if fst p <? 3 then 1 else 0)]) (combine (seq 0 (length vs)) vs)).
Definition weights : list pyval := [PInt 5; PInt 1; PInt 4; PInt 2; PInt 7; PInt 3; PInt 6].
Definition in_three : clf := construct IREP_ [(P_nbins, VOpt (Some 3%Z))].
Definition weighed : clf := fst (fit w_pandas in_three (DFrame (one_column weights)) None (Some (s_ "t")) (Some (PInt 1)) None MNone true []).
Lemma map_snd_combine {A B} (l : list A) : forall m : list B, length l = length m -> map snd (combine l m) = m.
Proof. induction l as [|a l IH]; intros [|b m] E; try discriminate; auto. cbn [combine map snd]. f_equal. apply IH. auto. Qed.
Lemma one_values vs : column_values (one_column vs) (s_ "v") vs.
Proof.
  split; [unfold one_column; cbn [frows]; rewrite map_length, combine_length, seq_length, Nat.min_id; reflexivity|].
  intros i rw v R V. unfold one_column in *. cbn [frows fcols] in *. rewrite nth_error_map in R. destruct (nth_error (combine _ vs) i) as [[k u]|] eqn:E; [|discriminate]. injection R as <-.
  assert (EU : nth_error (map snd (combine (seq 0 (length vs)) vs)) i = Some u) by (rewrite nth_error_map, E; reflexivity). rewrite map_snd_combine in EU by apply seq_length.
  exists 0, (s_ "v"). split; [reflexivity|]. split; [reflexivity|]. cbn [rcells nth_error]. congruence.
Qed.
Lemma one_input vs : vs <> [] -> exists ls, training_input (DFrame (one_column vs)) None (Some (s_ "t")) None (s_ "t") ls (labels (frows (one_column vs))).
Proof.
  intros NE. exists (map (fun r => nth 1 (rcells r) PNaN) (frows (one_column vs))). apply (input_column _ _ _ _ _ _ _ (one_column vs)); auto; try reflexivity.
  - constructor.
  - split.
    + intros r I. apply in_map_iff in I. destruct I as (p & <- & _). reflexivity.
    + intros i j a b A B Q. destruct i as [|[|i]], j as [|[|j]]; cbn in A, B; try (destruct i; discriminate); try (destruct j; discriminate); auto; injection A as <-; injection B as <-; vm_compute in Q; discriminate.
  - destruct vs as [|v vs]; [congruence|]. discriminate.
  - exists (s_ "t"). split; [right; left; auto|reflexivity].
  - split; [rewrite map_length; reflexivity|]. intros i rw v R V. rewrite nth_error_map, R in V. injection V as <-. exists 1, (s_ "t"). split; [reflexivity|]. split; [reflexivity|].
    apply nth_error_In, in_map_iff in R. destruct R as (p & <- & _). reflexivity.
Qed.
Lemma ranked_check cs s : StronglySorted Qlt s -> length s = length cs ->
  forallb (fun x => existsb (fun v => match num_of v with Some y => Qeq_bool y x | None => false end) cs) s = true -> ranked cs s.
Proof.
  intros SS L H. split; auto. split; auto. intros x I. rewrite forallb_forall in H. specialize (H x I). apply existsb_exists in H. destruct H as (v & V & H).
  destruct (num_of v) as [y|] eqn:E; [|discriminate]. exists v, y. split; auto. split; auto. apply Qeq_bool_iff. auto.
Qed.
Lemma weights_ranked : ranked weights [1; 2; 3; 4; 5; 6; 7]%Q.
Proof. apply ranked_check; [repeat constructor|reflexivity|reflexivity]. Qed.
Example C102_nonvacuous : c_bt weighed = Some (mkbt (Some [(s_ "v", [$"<3.0"; $"3.0 - 5.0"; $">5.0"])]) []) /\
  exists ivs blocks, shared_out [1; 2; 3; 4; 5; 6; 7]%Q ivs blocks /\ length ivs = 3 /\ forall block, In block blocks -> length block = 2 \/ length block = 3.
Proof.
  split; [vm_compute; reflexivity|]. destruct (one_input weights) as (ls & T); [discriminate|].
  destruct (C102_balanced_partial w_pandas in_three (DFrame (one_column weights)) None (Some (s_ "t")) (Some (PInt 1)) None MNone true [] (s_ "t") ls _ weighed (one_column weights) 3%Z (s_ "v") weights
    [1; 2; 3; 4; 5; 6; 7]%Q eq_refl T (table_frame _) eq_refl) as (bt & ivs & blocks & _ & _ & L & _ & SH & B).
  - lia.
  - exists (s_ "v"). split; [left; auto|reflexivity].
  - reflexivity.
  - apply one_values.
  - apply numeric_iff. reflexivity.
  - apply weights_ranked.
  - reflexivity.
  - intros i x I Q. change (Z.to_nat 3) with 3 in *. assert (U := quant_unique [1; 2; 3; 4; 5; 6; 7]%Q 3 i x ltac:(lia) Q). clear Q. rename U into Q. left. assert (E : i = 1 \/ i = 2) by lia. destruct E as [-> | ->]; [exists 300%Z|exists 500%Z]; rewrite Q; reflexivity.
  - vm_compute. reflexivity.
  - exists ivs, blocks. split; auto. split; [lia|]. intros block I. destruct (B block I) as [K|K]; rewrite K; auto.
Qed.

(** ** without [settled] the bins can be lopsided: the median of these nine different numbers is 1.004, shown as 1.0, so that one number
    is in the lower bin and eight are in the upper one *)
Definition close_by : list pyval := [PInt 0; PDec 1001 3; PDec 1002 3; PDec 1003 3; PDec 1004 3; PInt 2; PInt 3; PInt 4; PInt 5].
Definition close_numbers : list Q := [0; 1001 # 1000; 1002 # 1000; 1003 # 1000; 1004 # 1000; 2; 3; 4; 5]%Q.
Definition in_two : clf := construct IREP_ [(P_nbins, VOpt (Some 2%Z))].
Definition lopsided : clf := fst (fit w_pandas in_two (DFrame (one_column close_by)) None (Some (s_ "t")) (Some (PInt 1)) None MNone true []).
Theorem C102_balanced_refuted : exists ls bt,
  training_input (DFrame (one_column close_by)) None (Some (s_ "t")) None (s_ "t") ls (labels (frows (one_column close_by))) /\
  column_values (one_column close_by) (s_ "v") close_by /\ numeric close_by /\ ranked close_by close_numbers /\
  fit w_pandas in_two (DFrame (one_column close_by)) None (Some (s_ "t")) (Some (PInt 1)) None MNone true [] = (lopsided, Ok tt) /\ c_bt lopsided = Some bt /\
  exists ivs one eight, bins_for bt (s_ "v") (map label ivs) /\ ascending ivs /\ shared_out close_numbers ivs [one; eight] /\ length one = 1 /\ length eight = 8.
Proof.
  destruct (one_input close_by) as (ls & T); [discriminate|]. exists ls, (mkbt (Some [(s_ "v", [$"<1.0"; $">1.0"])]) []).
  split; [exact T|]. split; [apply one_values|]. split; [apply numeric_iff; reflexivity|]. split.
  { apply ranked_check; [repeat constructor|reflexivity|reflexivity]. }
  split; [vm_compute; reflexivity|]. split; [vm_compute; reflexivity|].
  exists [(BNInf, BNum 10 1); (BNum 10 1, BPInf)], [0%Q], (tl close_numbers). split; [exists [(s_ "v", [$"<1.0"; $">1.0"])], (s_ "v"); split; [reflexivity|split; [left; vm_compute; reflexivity|reflexivity] ]|].
  split; [|split; [split; [reflexivity|]|split; reflexivity] ].
  - apply (adjoining_ascending _ [BNum 10 1]); [split; reflexivity|]. cbn [increasing]. split; [eexists; reflexivity|]. split; exact I.
  - constructor; [|constructor; [|constructor] ].
    + intros x [<-|[] ]. split; [exact I|reflexivity || (vm_compute; discriminate)].
    + intros x X. unfold close_numbers in X. cbn [tl In] in X. split; [|exact I]. unfold below. cbn [fst bound_val]. destruct X as [<-|[<-|[<-|[<-|[<-|[<-|[<-|[<-|[] ] ] ] ] ] ] ] ]; reflexivity.
Qed.
Print Assumptions C102_balanced_refuted.

(** ** C102 for columns with repeated values: with n_discretize_bins = n, in a numeric column without missing values and with more than n
    different ones, every bin limit is, up to half a hundredth, an inner n-quantile of the training values; only if no inner quantile lies
    strictly between the least and the greatest value it is a point that cuts the range in n equal parts. *)
Theorem C102_every_limit : forall w cl X y cf pc names init cnopt kw f vs ix cl' fr n g cs,
  w_cut w = pandas_cut -> training_input X y cf names f vs ix -> table_of X names fr ->
  h_nbins (hyper_of cl kw) = Some n -> (2 <= n)%Z ->
  column_present fr g -> py_eq f g = false -> column_values fr g cs -> numeric cs -> ~ In PNaN cs -> more_than n cs ->
  fit w cl X y cf pc names init cnopt kw = (cl', Ok tt) ->
  exists bt ivs s, c_bt cl' = Some bt /\ bins_for bt g (map label ivs) /\ 2 <= length ivs /\ listed cs s /\
    ((exists i x, 0 < i < Z.to_nat n /\ quantile_of s (Z.to_nat n) i x /\ strictly_inside s x) /\ ends_near (Z.to_nat n) (quantile_of s (Z.to_nat n)) ivs \/
     (forall i x, 0 < i < Z.to_nat n -> quantile_of s (Z.to_nat n) i x -> ~ strictly_inside s x) /\ ends_near (Z.to_nat n) (equal_step s (Z.to_nat n)) ivs).
Proof.
  intros w cl X y cf pc names init cnopt kw f vs ix cl' fr n g cs WC T TB EN N2 PG NG CV NU NN MT H.
  destruct (fit_stored _ _ _ _ _ _ _ _ _ _ _ _ _ _ _ WC T TB H n g cs EN N2 PG NG CV NU NN MT) as (bt & labels & EB & BF & FL).
  assert (HM := missing_spec cs NU NN). apply numeric_iff in NU. apply more_than_unique in MT.
  destruct (any_bins cs n labels NU HM N2 MT FL) as (ivs & -> & ALT). exists bt, ivs, (sort_q (nums cs)). split; auto. split; auto. split; [|split; [apply nums_listed; auto|exact ALT] ].
  assert (C2 := cut_two n cs ltac:(lia) NU HM MT). destruct (fit_labels_ends _ ivs C2 FL) as (ivs' & E & _ & L & _).
  apply (f_equal (@length _)) in E. rewrite !map_length in E. lia.
Qed.
Print Assumptions C102_every_limit.
(** repeated values: the median 3 of 1 1 3 4 4 is the limit; the median of 1 1 1 1 2 5 is the least value, and the limit is 3, half-way from 1 to 5 *)
Definition tied : list pyval := [PInt 1; PInt 4; PInt 3; PInt 4; PInt 1].
Definition crowded : list pyval := [PInt 1; PInt 1; PInt 2; PInt 1; PInt 5; PInt 1].
Example C102_tied_nonvacuous :
  let fitted vs := fit w_pandas in_two (DFrame (one_column vs)) None (Some (s_ "t")) (Some (PInt 1)) None MNone true [] in
  numeric tied /\ numeric crowded /\ ~ In PNaN tied /\ ~ In PNaN crowded /\ more_than 2 tied /\ more_than 2 crowded /\
  (exists ls, training_input (DFrame (one_column tied)) None (Some (s_ "t")) None (s_ "t") ls (labels (frows (one_column tied)))) /\ column_values (one_column tied) (s_ "v") tied /\
  (exists ls, training_input (DFrame (one_column crowded)) None (Some (s_ "t")) None (s_ "t") ls (labels (frows (one_column crowded)))) /\ column_values (one_column crowded) (s_ "v") crowded /\
  snd (fitted tied) = Ok tt /\ c_bt (fst (fitted tied)) = Some (mkbt (Some [(s_ "v", [$"<3.0"; $">3.0"])]) []) /\
  snd (fitted crowded) = Ok tt /\ c_bt (fst (fitted crowded)) = Some (mkbt (Some [(s_ "v", [$"<3.0"; $">3.0"])]) []).
Proof.
  cbv zeta. split; [apply numeric_iff; reflexivity|]. split; [apply numeric_iff; reflexivity|]. split; [cbn; intuition discriminate|]. split; [cbn; intuition discriminate|].
  split; [apply more_than_unique; reflexivity|]. split; [apply more_than_unique; reflexivity|]. split; [apply one_input; discriminate|]. split; [apply one_values|].
  split; [apply one_input; discriminate|]. split; [apply one_values|]. split; [vm_compute; reflexivity|]. split; [vm_compute; reflexivity|]. split; vm_compute; reflexivity.
Qed.

(** ** C50: the thresholds of engine="numpy" *)
Lemma cents_near x : (Qabs (rval (cents_of x) - x) <= 1 # 200)%Q.
Proof.
  unfold rval, cents_of. cbn [fst snd]. assert (N := rint_near (x * 100)). assert (E : (qdec (rint (x * 100)) 2 * 100 == inject_Z (rint (x * 100)))%Q).
  { rewrite <- (qdec_mul (rint (x * 100)) 2). reflexivity. }
  rewrite <- E in N. revert N. generalize (qdec (rint (x * 100)) 2). intros y N. apply Qabs_Qle_condition in N. apply Qabs_Qle_condition. lra.
Qed.
Lemma quantile_any s n i : 1 < length s -> i < n -> quantile_of s n i (quantile s n i).
Proof.
  intros M I. set (j := (length s - 1) * i / n). assert (J : S j < length s).
  { assert (j < length s - 1); [|lia]. unfold j. apply Nat.div_lt_upper_bound; nia. }
  exists j, ((length s - 1) * i mod n), (at_q s j), (at_q s (S j)). split; [apply Nat.div_mod; lia|].
  split; [apply Nat.mod_upper_bound; lia|]. split; [apply nth_error_nth'; lia|]. split; [apply nth_error_nth'; lia|].
  unfold quantile. rewrite Qred_correct. reflexivity.
Qed.
Lemma nth_map_inv {A B} (f : A -> B) l i y : nth_error (map f l) i = Some y -> exists x, nth_error l i = Some x /\ f x = y.
Proof. rewrite nth_error_map. destruct (nth_error l i) as [x|]; [|discriminate]. intros H. injection H as <-. eauto. Qed.
Lemma nth_seq0 k m i : nth_error (seq 0 m) i = Some k -> k = i.
Proof. intros H. assert (L : i < m) by (rewrite <- (seq_length m 0); apply nth_error_Some; congruence). rewrite (nth_error_nth' _ 0) in H by (rewrite seq_length; auto). rewrite seq_nth in H by auto. injection H as <-. reflexivity. Qed.
Theorem C50_numpy_limits_near : forall n vs ths labels, numeric vs -> ~ In PNaN vs -> (2 <= n)%Z -> numpy_fit n vs = Ok (Some (ths, labels)) ->
  exists s, listed vs s /\ length ths = S (Z.to_nat n) /\
    ((forall i t, 0 < i < Z.to_nat n -> nth_error ths i = Some t -> exists x, quantile_of s (Z.to_nat n) i x /\ (Qabs (t - x) <= 1 # 200)%Q) \/
     (forall i t, 0 < i < Z.to_nat n -> nth_error ths i = Some t -> exists x, equal_step s (Z.to_nat n) i x /\ (Qabs (t - x) <= 1 # 200)%Q)).
Proof.
  intros n vs ths labels NU NN N2 H. assert (HM := missing_spec vs NU NN). exists (sort_q (nums vs)). split; [apply nums_listed; auto|].
  unfold numpy_fit in H. destruct (numpy_cut n vs) as [l|] eqn:C; cbn [bind] in H; [|discriminate H]. destruct (fit_labels _) as [b|] eqn:FL; cbn [bind] in H; [|discriminate H].
  destruct (2 <=? length b) eqn:B; [|discriminate H]. injection H as <- <-.
  unfold numpy_cut in C. set (s := sort_q (nums vs)) in *. set (q := Z.to_nat n) in *. assert (Q1 : 1 < q) by (unfold q; lia).
  set (ths0 := map cents_of (quantiles s q)) in *. assert (LT : length ths0 = S q) by (unfold ths0, quantiles; rewrite !map_length, seq_length; reflexivity).
  destruct (length (dedup_by Qeq_bool [] (map rval ths0)) <? 2) eqn:D2.
  - exfalso. destruct (Qeq_bool _ _); [discriminate C|]. injection C as <-. apply Nat.leb_le in B. cbn [map] in FL. unfold edge_pairs in FL. cbn in FL. apply (f_equal (fun r => match r with Ok t => length t | _ => 0 end)) in FL. cbn in FL. lia.
  - assert (M : 1 < length s).
    { apply Nat.ltb_ge in D2. destruct (le_lt_dec (length s) 1) as [L|]; auto. exfalso. revert D2. apply Nat.lt_nge.
      assert (E : exists a, forall i, at_q s i = a). { destruct s as [|a [|? ?]]; [exists 0%Q|exists a|cbn in L; lia]; intros [|[|i]]; reflexivity. }
      destruct E as (a & E). assert (K : forall y, In y (map rval ths0) -> (y == rval (cents_of a))%Q).
      { intros y I. unfold ths0 in I. rewrite map_map in I. apply in_map_iff in I. destruct I as (z & <- & I). unfold quantiles in I. apply in_map_iff in I. destruct I as (i & <- & _).
        unfold rval, cents_of. cbn [fst snd]. rewrite (rint_comp (quantile s q i * 100) (a * 100)); [reflexivity|]. unfold quantile. rewrite Qred_correct, !E. ring. }
      assert (G : forall l seen c, In c seen -> (forall y, In y l -> (y == c)%Q) -> dedup_by Qeq_bool seen l = []).
      { clear. induction l as [|y l IH]; intros seen c S K; auto. cbn [dedup_by]. assert (existsb (fun b => Qeq_bool b y) seen = true) as ->; [|eapply IH; eauto; intros; apply K; right; auto].
        apply existsb_exists. exists c. split; auto. apply Qeq_bool_iff. symmetry. apply K. left; auto. }
      destruct (map rval ths0) as [|y l0]; [cbn; lia|]. cbn [dedup_by existsb length]. rewrite (G l0 ([] ++ [y]) y); [cbn; lia|left; auto|].
      intros z I. rewrite (K z (or_intror I)). symmetry. apply K. left; auto. }
    destruct (length (dedup_by Qeq_bool [] (map rval ths0)) <? length ths0).
    + match type of C with Ok ?a = _ => assert (l = a) as -> by congruence end. clear C. split; [rewrite !map_length, seq_length; auto|]. right. intros i t I T. rewrite nth_error_map in T.
      destruct (nth_error (map _ _) i) as [r|] eqn:R; [|discriminate T]. injection T as <-. apply nth_map_inv in R. destruct R as (k & K & <-).
      apply nth_seq0 in K as ->.
      eexists. split; [|apply cents_near]. destruct (ends_of s ltac:(lia)) as (t & E1 & E2 & E3 & E4). exists (at_q s 0), (at_q s (length s - 1)), t. split; [auto|]. split; [auto|]. rewrite E3, E4. reflexivity.
    + injection C as <-. split; [rewrite map_length; auto|]. left. intros i t I T. rewrite nth_error_map in T.
      destruct (nth_error ths0 i) as [r|] eqn:R; [|discriminate T]. injection T as <-. unfold ths0 in R. apply nth_map_inv in R. destruct R as (z & Z & <-).
      unfold quantiles in Z. apply nth_map_inv in Z. destruct Z as (k & K & <-).
      apply nth_seq0 in K as ->.
      exists (quantile s q i). split; [apply quantile_any; lia|apply cents_near].
Qed.
Print Assumptions C50_numpy_limits_near.
(** quantiles, and equal steps because two of the quantiles of 1 1 1 1 2 5 coincide *)
Example C50_numpy_limits_nonvacuous :
  numeric even_vals /\ ~ In PNaN even_vals /\ numeric crowded /\ ~ In PNaN crowded /\
  (exists ths, numpy_fit 4 even_vals = Ok (Some (ths, [$"<3.75"; $"3.75 - 6.5"; $"6.5 - 9.25"; $">9.25"]))) /\
  (exists ths, numpy_fit 3 crowded = Ok (Some (ths, [$"<2.33"; $"2.33 - 3.67"; $">3.67"]))).
Proof.
  split; [apply numeric_iff; reflexivity|]. split; [cbn; intuition discriminate|]. split; [apply numeric_iff; reflexivity|]. split; [cbn; intuition discriminate|].
  split; eexists; vm_compute; reflexivity.
Qed.
