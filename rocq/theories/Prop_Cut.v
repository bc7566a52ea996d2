(** * Prop_Cut.v : the bins pandas chooses (C49, with Cut.v's model of pd.qcut / pd.cut) *)
From Verif Require Import FitRun Prop_Disc Demo Prop_Helpers Prop_Fit CutFacts.
From Coq Require Import Lqa Qround Qabs Sorting.Sorted.
Open Scope nat_scope.

(** The edges: for every numeric column with more different values than bins, the shown edges are finite and increasing, there are at
    least two, and every number of the column lies between the first and the last unrounded edge. *)
Theorem C49_pandas_edges : forall n vs, (0 < n)%Z -> is_numeric_col vs = true -> (n < Z.of_nat (length (unique vs)))%Z ->
  increasing (map e_shown (pandas_cut n vs)) /\ 2 <= length (pandas_cut n vs) /\
  forall v x, In v vs -> num_of v = Some x ->
    exists lo mid hi, pandas_cut n vs = lo :: mid ++ [hi] /\ (e_at lo <= x /\ x <= e_at hi)%Q.
Proof. exact pandas_cut_ok. Qed.
Print Assumptions C49_pandas_edges.

(** Refuted in general: the column 0 0 0 0 (many times), 1..9 and 1000 gets equal-width bins; the empty ones are dropped, 500 is in no bin. *)
Definition skew_vals : list pyval := map PInt (repeat 0%Z 120 ++ [1; 2; 3; 4; 5; 6; 7; 8; 9; 1000]%Z).
Theorem C49_gap_refuted : is_numeric_col skew_vals = true /\ (10 < Z.of_nat (length (unique skew_vals)))%Z /\
  fit_labels (pandas_bins (pandas_cut 10 skew_vals) skew_vals) = Ok [$"<100.0"; $">900.0"] /\
  transform_pandas [$"<100.0"; $">900.0"] [PInt 500] = Ok [PNaN].
Proof. repeat split; vm_compute; reflexivity. Qed.
Print Assumptions C49_gap_refuted.
(** Even training values: 5.004 is itself an edge, the bin above it is empty and dropped, the label's end is rounded to 5.0: three of the
    six training values are turned into nan by the transformer fitted to them. *)
Definition lost_vals : list pyval := [PInt 1; PDec 5004 3; PDec 5004 3; PDec 5004 3; PInt 7; PInt 9].
Theorem C49_training_value_lost_refuted : is_numeric_col lost_vals = true /\ (3 < Z.of_nat (length (unique lost_vals)))%Z /\
  fit_labels (pandas_bins (pandas_cut 3 lost_vals) lost_vals) = Ok [$"<5.0"; $">5.67"] /\
  transform_pandas [$"<5.0"; $">5.67"] lost_vals = Ok [s_ "<5.0"; PNaN; PNaN; PNaN; s_ ">5.67"; s_ ">5.67"].
Proof. repeat split; vm_compute; reflexivity. Qed.
Print Assumptions C49_training_value_lost_refuted.

(** ** exact edges *)
Definition cents (x : Q) : Prop := exists z, (x * 100 == inject_Z z)%Q.
Lemma cents_round p x : 2 <= p -> cents x -> (rval (round_frac p x) == x)%Q.
Proof.
  intros P (z & Z). destruct (Qeq_dec x 0) as [E|E]; [rewrite round_frac_0 by auto; rewrite E; reflexivity|]. rewrite round_frac_nz by auto. unfold rval. cbn [fst snd].
  set (d := p + lead0 x). assert (X : (x * inject_Z (pow10z d) == inject_Z (z * pow10z (d - 2)))%Q).
  { replace d with (2 + (d - 2)) at 1 by (unfold d; lia). rewrite pow10_add, inject_Z_mult, Qmult_assoc. change (inject_Z (pow10z 2)) with 100%Q. rewrite Z, inject_Z_mult. reflexivity. }
  rewrite (rint_comp _ _ X), rint_int. assert (PP := inj_pow_pos d). apply (Qmult_inj_r _ _ (inject_Z (pow10z d))); [lra|]. rewrite qdec_mul, X. reflexivity.
Qed.
(** the multiples of n/100: sums, differences, and i/n of a difference has two decimals *)
Definition grain (n : nat) (x : Q) : Prop := exists z, (x * 100 == inject_Z (Z.of_nat n * z))%Q.
Lemma grain_cents n a b i : 0 < n -> grain n a -> grain n b -> cents (a + (b - a) * (Z.of_nat i # Pos.of_nat n))%Q.
Proof.
  intros N (u & U) (v & V). exists (Z.of_nat n * u + (v - u) * Z.of_nat i)%Z.
  assert (E : ((Z.of_nat i # Pos.of_nat n) * inject_Z (Z.of_nat n) == inject_Z (Z.of_nat i))%Q).
  { unfold Qeq, Qmult, inject_Z. cbn [Qnum Qden]. rewrite <- (Nat2Pos.id n) at 1 by lia. rewrite positive_nat_Z, Pos.mul_1_r. lia. }
  transitivity (a * 100 + (b * 100 - a * 100) * (Z.of_nat i # Pos.of_nat n))%Q; [ring|]. rewrite U, V, !inject_Z_plus, !inject_Z_mult.
  assert (I2 : inject_Z (v - u) = (inject_Z v - inject_Z u)%Q) by (unfold Z.sub; rewrite inject_Z_plus, inject_Z_opp; reflexivity). rewrite I2.
  rewrite <- E. ring.
Qed.
Lemma cents_comp x y : (x == y)%Q -> cents x -> cents y.
Proof. intros E (z & Z). exists z. rewrite <- E. exact Z. Qed.

Lemma pair_case lowest x t a b : Forall cents t -> In (a, b) (edge_pairs (show_edges lowest (x :: t))) ->
  (exists q, bound_val (e_shown b) = FFin q /\ (q == e_at b)%Q) /\
  ((exists q, bound_val (e_shown a) = FFin q /\ (q == e_at a)%Q) \/ exists rest, edge_pairs (show_edges lowest (x :: t)) = (a, b) :: rest).
Proof.
  intros C I. unfold show_edges in *. assert (P := infer_ge 2 (x :: t)). set (p := infer_precision 2 (x :: t)) in *.
  set (x' := mkedge x _) in *. set (t' := map (fun y => mkedge y (float_bound (round_frac p y))) t) in *.
  assert (T : forall c, In c t' -> exists q, bound_val (e_shown c) = FFin q /\ (q == e_at c)%Q).
  { intros c Hc. unfold t' in Hc. apply in_map_iff in Hc. destruct Hc as (y & <- & Y). cbn [e_shown e_at]. destruct (float_bound_val (round_frac p y)) as (q & E & Q).
    exists q. split; auto. rewrite Q. apply cents_round; auto. rewrite Forall_forall in C. auto. }
  clearbody x' t'. destruct t' as [|y t']; [contradiction|]. rewrite edge_pairs_cons in *. destruct I as [E|I]; [injection E as <- <-; split; [apply T; left; auto|eauto]|].
  assert (M : In b t' /\ In a (y :: t')).
  { clear -I. revert y I. induction t' as [|c t' IH]; intros y I; [contradiction|]. rewrite edge_pairs_cons in I. destruct I as [E|I].
    - injection E as <- <-. split; left; auto.
    - apply IH in I. destruct I. split; right; auto. }
  destruct M. split; [apply T; right; auto|left; apply T; auto].
Qed.
Lemma sorted_somewhere edges x : (exists lo mid hi, edges = lo :: mid ++ [hi] /\ (e_at lo <= x /\ x <= e_at hi)%Q) ->
  (exists a b rest, edge_pairs edges = (a, b) :: rest /\ (e_at a <= x /\ x <= e_at b)%Q) \/
  (exists a b, In (a, b) (edge_pairs edges) /\ (e_at a < x /\ x <= e_at b)%Q).
Proof.
  intros (lo & mid & hi & -> & L & H). destruct mid as [|m mid]; [left; exists lo, hi, []; auto|]. cbn [app]. rewrite edge_pairs_cons.
  destruct (Qlt_le_dec (e_at m) x) as [D|D]; [|left; eauto 6]. right. destruct (edge_pairs_hit x m mid hi D H) as ([a b] & I & C). exists a, b. split; [right; auto|auto].
Qed.
Lemma kept_first edges vs v x a b rest : In v vs -> num_of v = Some x -> edge_pairs edges = (a, b) :: rest -> (e_at a <= x /\ x <= e_at b)%Q ->
  exists rest', pandas_bins edges vs = (e_shown a, e_shown b) :: rest'.
Proof.
  intros V X E [L H]. unfold pandas_bins. rewrite E. cbn [mark_first filter]. assert (S : existsb (sorted_into (fst (true, (a, b))) (snd (true, (a, b)))) vs = true).
  { apply existsb_exists. exists v. split; auto. unfold sorted_into. cbn [fst snd]. rewrite X. apply andb_true_intro. split; apply Qle_bool_iff; auto. }
  rewrite S. cbn [map]. eexists. reflexivity.
Qed.
Lemma tl_drop x t : Forall cents t -> exists t', drop_repeated (x :: t) = x :: t' /\ Forall cents t'.
Proof.
  intros C. unfold drop_repeated. destruct (_ =? 2); [eauto|]. cbn [dedup_by existsb app]. eexists. split; [reflexivity|]. rewrite Forall_forall in *. intros y Hy. apply C. eapply dedup_by_In; eauto.
Qed.
Lemma at_q_In s j : s <> [] -> In (at_q s j) s.
Proof.
  intros H. unfold at_q. destruct (Nat.lt_ge_cases j (length s)); [apply nth_In; auto|]. rewrite nth_overflow by auto. apply last_In; auto.
Qed.

(** A case in which no training value is lost: every number of the column is a multiple of n/100 (for n = 10: at most one decimal).
    Then each training number lies in exactly one bin and is given that bin's label. *)
Theorem C49_training_value_kept : forall n vs labels, (0 < n)%Z -> is_numeric_col vs = true -> (n < Z.of_nat (length (unique vs)))%Z ->
  (forall v x, In v vs -> num_of v = Some x -> exists z, (x * 100 == inject_Z (n * z))%Q) ->
  fit_labels (pandas_bins (pandas_cut n vs) vs) = Ok labels ->
  exists bins, labels = map label bins /\
    forall v x, In v vs -> num_of v = Some x ->
      exists pre b post, bins = pre ++ b :: post /\ contains b x /\ (forall c, In c (pre ++ post) -> ~ contains c x) /\
        transform_pandas labels [v] = Ok [PStr (label b)].
Proof.
  intros n vs labels N NC U G FL. destruct (pandas_cut_ok n vs N NC U) as (I & L2 & R).
  destruct (fit_labels_exact _ vs I) as [[_ E]|(bins & E & _ & O & K1 & K2)]; [congruence|]. rewrite E in FL. injection FL as <-. exists bins. split; auto.
  intros v x V X.
  assert (CV : exists b, In b bins /\ contains b x).
  { assert (SH : exists lowest y t, pandas_cut n vs = show_edges lowest (y :: t) /\ Forall cents t).
    { unfold pandas_cut. set (s := sort_q (nums vs)). set (q := Z.to_nat n). assert (Q0 : 0 < q) by (unfold q; lia).
      assert (SG : forall y, In y s -> grain q y).
      { intros y Hy. unfold s in Hy. apply (proj1 (sort_q_In _ _)) in Hy. unfold nums in Hy. apply in_flat_map in Hy. destruct Hy as (w & W & Hy). destruct (num_of w) as [u|] eqn:EU; [|contradiction].
        destruct Hy as [<-|[]]. destruct (G w u W EU) as (z & Z). exists z. rewrite Qred_correct, Z. unfold q. rewrite Z2Nat.id by lia. reflexivity. }
      assert (SN : s <> []). { assert (H := proj2 (sort_q_In (nums vs) _) (nums_In vs v x V X)). fold s in H. intros Z. rewrite Z in H. contradiction. }
      destruct (_ <? 2).
      - assert (CT : Forall cents (map (fun i => Qred (hd 0 s + (last s 0 - hd 0 s) * (Z.of_nat i # Pos.of_nat q)))%Q (seq 1 q))).
        { apply Forall_forall. intros y Hy. apply in_map_iff in Hy. destruct Hy as (i & <- & _). eapply cents_comp; [symmetry; apply Qred_correct|].
          apply grain_cents; auto; apply SG; [destruct s; [congruence|left; auto]|apply last_In; auto]. }
        unfold equal_width. destruct (tl_drop (Qred (hd 0 s - (last s 0 - hd 0 s) * (1 # 1000)))%Q _ CT) as (t' & -> & C'). eauto 6.
      - assert (CT : Forall cents (map (quantile s q) (seq 1 q))).
        { apply Forall_forall. intros y Hy. apply in_map_iff in Hy. destruct Hy as (i & <- & _). eapply cents_comp; [symmetry; apply Qred_correct|].
          apply grain_cents; auto; apply SG, at_q_In; auto. }
        unfold quantiles. cbn [seq map]. destruct (tl_drop (quantile s q 0) _ CT) as (t' & -> & C'). eauto 6. }
    destruct SH as (lowest & y & t & SH & CT). specialize (R v x V X). rewrite SH in *.
    assert (FIRST : forall a b rest, edge_pairs (show_edges lowest (y :: t)) = (a, b) :: rest -> (e_at a <= x /\ x <= e_at b)%Q -> exists b, In b bins /\ contains b x).
    { intros a b rest EP B. destruct (kept_first _ vs v x a b rest V X EP B) as (rest' & EB). apply (K2 _ _ _ x EB).
      destruct (pair_case lowest y t a b CT) as [(qb & Eb & Qb) _]; [rewrite EP; left; auto|]. unfold at_most. rewrite Eb, Qb. tauto. }
    destruct (sorted_somewhere _ x R) as [(a & b & rest & EP & B)|(a & b & EP & B)]; [eauto|].
    destruct (pair_case lowest y t a b CT EP) as [(qb & Eb & Qb) [(qa & Ea & Qa)|(rest & EF)]].
    - apply (K1 _ x (kept_strict _ vs v x (a, b) V X EP B)). unfold contains, below, at_most, shown_bin. cbn [fst snd]. rewrite Ea, Eb, Qa, Qb. exact B.
    - apply (FIRST a b rest EF). split; [apply Qlt_le_weak|]; tauto. }
  destruct CV as (b0 & B0 & C0). destruct (transform_exact bins [v] O) as (out & T & F). inversion F as [|? o ? ? B F']; subst. inversion F'; subst. unfold binned in B. rewrite X in B.
  destruct B as [(pre & b & post & B1 & B2 & B3 & ->)|[NB _]]; [|exfalso; eapply NB; eauto]. exists pre, b, post. split; [auto|]. split; [auto|]. split; auto.
Qed.
Print Assumptions C49_training_value_kept.
Definition round_vals : list pyval := [PInt 3; PDec 5 1; PNaN; PInt 3; PDec 42 1; PInt 12; PInt (-7); PInt 3; PDec 85 1].
Example C49_training_value_kept_nonvacuous : is_numeric_col round_vals = true /\ (5 < Z.of_nat (length (unique round_vals)))%Z /\
  (forall v x, In v round_vals -> num_of v = Some x -> exists z, (x * 100 == inject_Z (5 * z))%Q) /\
  fit_labels (pandas_bins (pandas_cut 5 round_vals) round_vals) = Ok [$"<1.5"; $"1.5 - 3.0"; $"3.24 - 6.78"; $">6.78"].
Proof.
  split; [reflexivity|]. split; [reflexivity|]. split; [|vm_compute; reflexivity]. intros v x I E.
  destruct I as [<-|[<-|[<-|[<-|[<-|[<-|[<-|[<-|[<-|[]]]]]]]]]].
  - injection E as <-; exists 60%Z; reflexivity.
  - injection E as <-; exists 10%Z; reflexivity.
  - discriminate E.
  - injection E as <-; exists (60)%Z; reflexivity.
  - injection E as <-; exists (84)%Z; reflexivity.
  - injection E as <-; exists (240)%Z; reflexivity.
  - injection E as <-; exists (-140)%Z; reflexivity.
  - injection E as <-; exists (60)%Z; reflexivity.
  - injection E as <-; exists (170)%Z; reflexivity.
Qed.

(** the model of pandas' edges gives an admissible world: the hypotheses of the theorems about fit can be met by it *)
Definition w_pandas : world := mkworld env0 pandas_cut (fun n l => firstn n l).
Example pandas_world_ok : world_ok w_pandas. Proof. split; [exact env0_ok|exact pandas_cut_ok]. Qed.

(** ** C50, engine="numpy": the whole of fit and transform on one column *)
Lemma dedup_all {A} (eqb : A -> A -> bool) seen l : length (dedup_by eqb seen l) = length l -> dedup_by eqb seen l = l.
Proof.
  revert seen; induction l as [|x l IH]; intros seen H; cbn [dedup_by] in *; auto. assert (LE : forall s, length (dedup_by eqb s l) <= length l).
  { clear. induction l as [|y l IH]; intros s; cbn [dedup_by length]; auto. destruct (existsb _ s); cbn [length]; [specialize (IH s)|specialize (IH (s ++ [y]))]; lia. }
  destruct (existsb _ seen); [specialize (LE seen); cbn in H; lia|]. f_equal. apply IH. cbn in H. lia.
Qed.
Lemma transform_numpy_comp ths ths' bins vs : Forall2 Qeq ths ths' -> transform_numpy ths bins vs = transform_numpy ths' bins vs.
Proof.
  intros H. assert (D : forall v, digitize ths v = digitize ths' v).
  { intros v. unfold digitize. destruct (num_of v) as [x|]; [|eapply Forall2_length; eauto]. induction H as [|a b l l' E F IH]; [reflexivity|]. cbn [filter].
    assert (Qle_bool a x = Qle_bool b x) as ->; [|destruct (Qle_bool b x); cbn [length]; rewrite IH; reflexivity].
    apply Bool.eq_true_iff_eq. rewrite !Qle_bool_iff, E. reflexivity. }
  unfold transform_numpy. induction vs as [|v vs IH]; cbn [mapM]; [reflexivity|]. rewrite D, IH. reflexivity.
Qed.
(** If the quantiles, rounded to two decimals, are all different, the thresholds are these: increasing, and every number (of any column) is
    put into the bin containing it, lower end included, upper end excluded. *)
Theorem C50_numpy_quantiles_partial : forall n vs, (1 < n)%Z -> all_differ (map (fun x => rval (cents_of x)) (quantiles (sort_q (nums vs)) (Z.to_nat n))) = true ->
  exists bins ths, numpy_fit n vs = Ok (Some (ths, map label bins)) /\ length bins = Z.to_nat n /\
    forall v x, num_of v = Some x -> exists b, In b bins /\ contains_left b x /\ transform_numpy ths (map label bins) [v] = Ok [PStr (label b)].
Proof.
  intros n vs N A. set (s := sort_q (nums vs)) in *. set (q := Z.to_nat n) in *. assert (Q0 : 1 < q) by (unfold q; lia).
  set (l := map cents_of (quantiles s q)). assert (EL : map rval l = map (fun x => rval (cents_of x)) (quantiles s q)) by (unfold l; rewrite map_map; reflexivity).
  assert (LEN : length l = S q) by (unfold l, quantiles; rewrite !map_length, seq_length; reflexivity).
  assert (SS : StronglySorted Qlt (map rval l)).
  { rewrite EL. assert (SQ : StronglySorted Qle (quantiles s q)) by (apply sorted_map_seq; intros; apply quantile_mono; auto; [apply sort_q_sorted|lia]).
    apply all_differ_spec in A. clear -SQ A. revert A. induction SQ as [|a t S IH F]; intros A; cbn [map] in *; [constructor|]. inversion A as [|? ? A1 A2]; subst. constructor; auto.
    rewrite Forall_forall in *. intros y Hy. assert (NE := A1 y Hy). apply in_map_iff in Hy. destruct Hy as (z & <- & Z). assert (M : (rval (cents_of a) <= rval (cents_of z))%Q).
    { unfold rval, cents_of. cbn [fst snd]. apply qdec_le_iff. rewrite qdec_mul. rewrite <- Zle_Qle. apply rint_mono. apply Qmult_le_r; [lra|apply F; auto]. }
    apply Qle_lteq in M. destruct M; auto. contradiction. }
  assert (INC := increasing_bounds l SS).
  assert (NC : numpy_cut n vs = Ok l).
  { unfold numpy_cut. fold s. fold q. fold l. destruct (dedup_sorted [] (map rval l) (strict_weak _ SS)) as [_ _]; [contradiction|].
    assert (DD : length (dedup_by Qeq_bool [] (map rval l)) = length l).
    { rewrite EL. rewrite EL in SS. clear -A SS LEN EL. rewrite <- (map_length rval l), EL. revert A. generalize (map (fun x => rval (cents_of x)) (quantiles s q)). intros t A. apply all_differ_spec in A.
      assert (G : forall seen, (forall a b, In a seen -> In b t -> ~ (a == b)%Q) -> length (dedup_by Qeq_bool seen t) = length t); [|apply G; contradiction].
      induction A as [|x t F A IH]; intros seen H; cbn [dedup_by length]; auto. destruct (existsb (fun b => Qeq_bool b x) seen) eqn:E.
      - apply existsb_exists in E. destruct E as (b & B & E). apply Qeq_bool_iff in E. exfalso. apply (H b x B (or_introl eq_refl) E).
      - cbn [length]. f_equal. apply IH. intros a b Ha Hb. apply in_app_or in Ha. destruct Ha as [Ha|[<-|[]]]; [apply H; auto; right; auto|]. rewrite Forall_forall in F. apply F; auto. }
    rewrite DD, LEN. assert (S q <? 2 = false) as -> by (apply Nat.ltb_ge; lia). rewrite Nat.ltb_irrefl. reflexivity. }
  destruct (ends_case (map float_bound l)) as [X|[(a & X)|(lo & mid & hi & X)]].
  - exfalso. destruct l; [discriminate LEN|discriminate X].
  - exfalso. apply (f_equal (@length bound)) in X. rewrite map_length, LEN in X. cbn in X. lia.
  - assert (LB : length (edge_pairs (BNInf :: mid ++ [BPInf])) = q).
    { rewrite <- (map_length fst), (proj1 (edge_pairs_fst BNInf mid BPInf)). apply (f_equal (@length bound)) in X. rewrite map_length, LEN in X. cbn [length] in *. rewrite app_length in X. cbn in X. lia. }
    exists (edge_pairs (BNInf :: mid ++ [BPInf])), (map rval l).
    assert (FL : fit_labels (edge_pairs (map float_bound l)) = Ok (map label (edge_pairs (BNInf :: mid ++ [BPInf])))) by (rewrite X; unfold fit_labels; rewrite extend_contiguous; reflexivity).
    split; [unfold numpy_fit; rewrite NC; cbn [bind]; rewrite FL; cbn [bind]; rewrite map_length, LB; assert (2 <=? q = true) as -> by (apply Nat.leb_le; lia); reflexivity|].
    split; [exact LB|]. intros v x VX. rewrite X in INC. destruct (numpy_exact lo mid hi v x INC VX) as (b & B1 & B2 & B3). exists b. split; [auto|]. split; [auto|].
    rewrite <- B3, <- X. apply transform_numpy_comp. rewrite map_map. clear. induction l as [|r l IH]; cbn [map]; constructor; auto.
    unfold bin_val. destruct (float_bound_val r) as (z & -> & Z). symmetry. exact Z.
Qed.
Print Assumptions C50_numpy_quantiles_partial.
Definition even_vals : list pyval := map PInt [1; 2; 3; 4; 5; 6; 7; 8; 9; 10; 11; 12]%Z.
Example C50_numpy_quantiles_nonvacuous :
  all_differ (map (fun x => rval (cents_of x)) (quantiles (sort_q (nums even_vals)) (Z.to_nat 4))) = true /\
  exists ths, numpy_fit 4 even_vals = Ok (Some (ths, [$"<3.75"; $"3.75 - 6.5"; $"6.5 - 9.25"; $">9.25"])) /\
    transform_numpy ths [$"<3.75"; $"3.75 - 6.5"; $"6.5 - 9.25"; $">9.25"] [PDec 375 2; PInt 4; PInt (-3)] = Ok [s_ "3.75 - 6.5"; s_ "3.75 - 6.5"; s_ "<3.75"].
Proof. split; [reflexivity|]. eexists. split; vm_compute; reflexivity. Qed.
(** Missing: coinciding rounded quantiles. A missing value next to a single number makes fit raise AttributeError; numbers closer together
    than 0.01 get bins with equal ends, which hold nothing. *)
Theorem C50_numpy_fit_refuted : numpy_fit 1 [PInt 5; PNaN; PInt 5] = Err AttributeError /\ numpy_fit 1 [PInt 5; PInt 6] = Ok None /\
  exists ths, numpy_fit 4 (map (fun z => PDec z 3) [0; 1; 2; 3; 4; 5; 6; 7]%Z) = Ok (Some (ths, [$"<0.0"; $"0.0 - 0.0"; $"0.0 - 0.01"; $">0.01"])).
Proof. split; [reflexivity|]. split; [reflexivity|]. eexists. vm_compute. reflexivity. Qed.
Print Assumptions C50_numpy_fit_refuted.
