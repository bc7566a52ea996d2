(** * Prop_Examples.v : C86 -- the examples returned by rule_stats *)
From Verif Require Import ExamplesSpec ClfFacts PrepFacts CallForm Prop_Classifier Prop_FitModel Prop_Model Prop_Train Prop_Fit Prop_Prep Prop_Helpers Demo.
Open Scope nat_scope.

Lemma picks_transport {A B} (P : A -> Prop) (Q : B -> Prop) (R : A -> B -> Prop) l k k' :
  Forall2 (fun a b => R a b /\ (P a <-> Q b)) l k -> picks Q k k' -> exists l', picks P l l' /\ Forall2 R l' k'.
Proof.
  intros F PK. revert l F. induction PK as [|b k k' HQ PK IH|b k k' HQ PK IH]; intros l F; inversion F as [|a b' l0 k0 [HR HPQ] F']; subst.
  - exists []. split; constructor.
  - destruct (IH l0 F') as (l' & K1 & K2). exists (a :: l'). split; constructor; auto. tauto.
  - destruct (IH l0 F') as (l' & K1 & K2). exists l'. split; [apply picks_no; auto; tauto|auto].
Qed.
Lemma lookup_at ix vals i l v : NoDup ix -> nth_error ix i = Some l -> nth_error vals i = Some v -> lookup_label ix vals l = v.
Proof.
  unfold lookup_label. revert vals i. induction ix as [|x ix IH]; intros vals i N; [destruct i; discriminate|]. inversion N as [|? ? N1 N2]; subst.
  destruct vals as [|u vals]; [destruct i; discriminate|]. destruct i as [|i]; cbn [nth_error combine find fst].
  - intros E1 E2. injection E1 as ->. injection E2 as ->. rewrite Nat.eqb_refl. reflexivity.
  - intros E1 E2. destruct (Nat.eqb_spec x l) as [->|]; [exfalso; apply N1; eapply nth_error_In; eauto|]. eapply IH; eauto.
Qed.
Lemma label_once rows r : NoDup (labels rows) -> In r rows -> length (filter (fun r' => rlab r' =? rlab r) rows) = 1.
Proof.
  unfold labels. induction rows as [|a rows IH]; [intros _ []|]. cbn [map filter]. intros N I. inversion N as [|? ? N1 N2]; subst.
  destruct (Nat.eqb_spec (rlab a) (rlab r)) as [E|E].
  - cbn [length]. f_equal. destruct (filter _ rows) as [|b l] eqn:F; auto. exfalso. assert (IB : In b (filter (fun r' => rlab r' =? rlab r) rows)) by (rewrite F; left; auto).
    apply filter_In in IB. destruct IB as [IB EB]. apply Nat.eqb_eq in EB. apply N1. rewrite E, <- EB. apply in_map; auto.
  - destruct I as [->|I]; [congruence|]. auto.
Qed.
Lemma prediction_frame_columns cl x cf pc sel bt X names fr df : ready cl x cf pc sel -> suits cl x cf sel bt X names fr -> prediction_frame cl bt X names = Ok df ->
  forall g, column_present df g <-> usable fr cf g.
Proof.
  intros R S H g. destruct R as [R1 R2 R3 R4 R5]. destruct S as [PI G NE L SB B S1 S2]. destruct (prediction_df_spec _ _ _ _ PI G) as (fr1 & E1 & G1 & L1 & P1 & V1).
  assert (NC := pi_no_class _ _ _ _ _ PI G E1).
  assert (K : fcols df = fcols fr1).
  { unfold prediction_frame in H. rewrite R2, R3, R4 in H. cbn [attr bind] in H. destruct (c_feats cl); [|discriminate]. cbn [attr bind] in H. unfold preprocess_prediction in H.
    binv H. rewrite E1 in H. cbn [bind] in H. binv H. destruct (bt_bool bt); [|injection H as <-; auto]. eapply transform_fcols; eauto. apply G1. }
  unfold column_present at 1. rewrite K. fold (column_present fr1 g). split.
  - intros C. assert (N : py_eq cf g = false). { apply Bool.not_true_iff_false. intros E. apply NC. destruct C as (c & I & Ec). exists c. split; auto. eapply py_eq_trans; [exact Ec|rewrite py_eq_sym; auto]. }
    split; auto. apply P1; auto.
  - intros [C N]. apply P1; auto.
Qed.
Lemma given_length fr ys : (forall l, ys = Some l -> length l = length (frows fr)) -> length (given_labels fr ys) = length (frows fr).
Proof. intros H. unfold given_labels. destruct ys as [l|]; rewrite map_length; auto. Qed.

(** the covered rows, with their labels attached *)
Lemma examples_table w cf df fr bt ys r cov n :
  views bt cf fr df -> (forall g, column_present df g <-> usable fr cf g) -> distinct_labels df ->
  fcols cov = fcols df -> picks (fun rd => sat_rule (fcols df) rd r) (frows df) (frows cov) ->
  (forall i rw rd, nth_error (frows fr) i = Some rw -> nth_error (frows df) i = Some rd -> (sat_rule (fcols df) rd r <-> holds bt (fcols fr) rw r)) ->
  (forall l, ys = Some l -> length l = length (frows fr) /\ py_eq cf cf = true) ->
  exists c covered, examples_from bt fr ys r covered /\ Forall2 (example_of bt cf fr c) covered (frows c) /\ NoDup (labels (frows c)) /\
    examples_of w cf df cov ys n =
      (if (n =? -1)%Z then Ok c
       else if (0 <? n)%Z then Ok (with_rows c (w_sample w (Nat.min (Z.to_nat n) (length (frows c))) (frows c)))
       else Err ValueError).
Proof.
  intros V CP D FC PK SH LY. assert (LEN := views_length _ _ _ _ V). assert (GD := vw_good _ _ _ _ V).
  assert (LG : length (given_labels fr ys) = length (frows fr)) by (apply given_length; intros l E; apply (LY l E)).
  assert (TR : Forall2 (fun rv rd => (rlab rd = rlab (fst rv) /\ (forall g u, usable fr cf g -> (value_at (fcols df) rd g u <-> sees bt (fcols fr) (fst rv) g u)) /\
      (forall l, ys = Some l -> snd rv = Some (lookup_label (labels (frows df)) l (rlab rd))) /\ (ys = None -> snd rv = None)) /\
      (holds bt (fcols fr) (fst rv) r <-> sat_rule (fcols df) rd r)) (combine (frows fr) (given_labels fr ys)) (frows df)).
  { apply Forall2_of_nth; [rewrite combine_length; lia|]. intros i [rw v] rd N1 N2. cbn [fst snd].
    assert (NR : nth_error (frows fr) i = Some rw /\ nth_error (given_labels fr ys) i = Some v).
    { clear -N1. revert i N1. generalize (given_labels fr ys) as k. induction (frows fr) as [|a l IH]; intros [|b k] [|i] H; try discriminate; cbn in H; [injection H as -> ->; auto|]. cbn [nth_error]. auto. }
    destruct NR as [NR NV]. assert (LB : nth_error (labels (frows df)) i = Some (rlab rd)) by (unfold labels; rewrite nth_error_map, N2; reflexivity).
    split; [|symmetry; eapply SH; eauto]. split; [|split; [|split]].
    - assert (Q := LB). rewrite (vw_labels _ _ _ _ V) in Q. unfold labels in Q. rewrite nth_error_map, NR in Q. cbn in Q. congruence.
    - intros g u U. eapply vw_cells; eauto.
    - intros l ->. cbn [given_labels] in NV. rewrite nth_error_map in NV. destruct (nth_error l i) as [y|] eqn:Ny; [|discriminate]. cbn in NV. injection NV as <-. f_equal. symmetry. eapply lookup_at; eauto.
    - intros ->. cbn [given_labels] in NV. rewrite nth_error_map, NR in NV. cbn in NV. congruence. }
  destruct (picks_transport _ _ _ _ _ _ TR PK) as (covered & KP & KF).
  assert (SUB : forall rd, In rd (frows cov) -> In rd (frows df)) by (intros rd I; apply (picks_In _ _ _ _ PK) in I; apply I).
  assert (DC : NoDup (labels (frows cov))).
  { clear -D PK. unfold distinct_labels, labels in *. induction PK as [|b k k' HQ PK IH|b k k' HQ PK IH]; cbn [map] in *; auto; inversion D as [|? ? N1 N2]; subst; auto.
    constructor; auto. intros I. apply N1. apply in_map_iff in I. destruct I as (c & <- & I). apply in_map. apply (picks_In _ _ _ _ PK) in I. apply I. }
  assert (GC : good_frame cov) by (destruct GD as [W DK]; split; [intros rd I; rewrite FC; apply W; auto|rewrite FC; auto]).
  unfold examples_of. destruct ys as [l|].
  - destruct (LY l eq_refl) as [LL CC].
    assert (B : forallb (fun r0 : row => length (filter (fun r' => rlab r' =? rlab r0) (frows df)) =? 1) (frows cov) = true).
    { apply forallb_forall. intros rd I. rewrite (label_once _ _ D (SUB rd I)). reflexivity. }
    rewrite B. cbn [bind]. set (vals := map (fun r0 => lookup_label (labels (frows df)) l (rlab r0)) (frows cov)). exists (put_col cov cf vals), covered.
    destruct (put_col_spec cov cf vals GC) as [G2 (L1 & L2 & L3 & L4)]; [unfold vals; rewrite map_length; auto|auto|]. split; auto. split; [|split; [rewrite L1; auto|reflexivity]].
    apply Forall2_of_nth; [rewrite L2; eapply Forall2_length; eauto|]. intros i rv rd N1 N2.
    destruct (Forall2_nth _ _ _ _ _ KF N1) as (rc & Nc & (A1 & A2 & A3 & _)).
    destruct (L4 i rc (lookup_label (labels (frows df)) l (rlab rc)) Nc) as (rd' & Nd & Vc & Vo); [unfold vals; rewrite nth_error_map, Nc; reflexivity|].
    rewrite N2 in Nd. injection Nd as <-. split; [|split].
    + assert (Q : nth_error (labels (frows (put_col cov cf vals))) i = Some (rlab rd)) by (unfold labels; rewrite nth_error_map, N2; reflexivity). rewrite L1 in Q. unfold labels in Q. rewrite nth_error_map, Nc in Q. cbn in Q. congruence.
    + intros g u U. rewrite Vo by apply U. rewrite FC. auto.
    + rewrite (A3 l eq_refl). exact Vc.
  - cbn [bind]. exists cov, covered. split; auto. split; [|split; auto]. apply Forall2_of_nth; [eapply Forall2_length; eauto|]. intros i rv rd N1 N2. destruct (Forall2_nth _ _ _ _ _ KF N1) as (rd' & N3 & (A1 & A2 & _ & A4)). rewrite N2 in N3. injection N3 as <-. split; auto. split; [intros g u U; rewrite FC; auto|].
    rewrite (A4 eq_refl). intros C. assert (C' : column_present df cf) by (destruct C as (c & I & E); exists c; rewrite <- FC; auto). apply CP in C'. destruct C' as [(c & I & E) N].
    assert (py_eq cf cf = true) by (eapply py_eq_trans; [rewrite py_eq_sym; exact E|exact E]). congruence.
Qed.

(** C86. With n_examples=-1, rule_stats returns with each rule's line (which is as without examples) a table with exactly the rows of X on
    which the rule holds, in order, as the rules see them (numbers as bins), and with their labels in the class column if y was passed.
    With n_examples=k>0: min(k, number of such rows) of these, none twice. *)
Theorem C86_examples : forall w cl x cf pc sel bt X names fr y n,
  ready cl x cf pc sel -> c_bt cl = Some bt -> suits cl x cf sel bt X names fr ->
  (forall y', y = Some y' -> length (y_vals y') = length (frows fr) /\ py_eq cf cf = true) ->
  (n = (-1) \/ 0 < n /\ sample_ok w)%Z ->
  exists lines, clf_rule_stats w cl X y (Some n) names = (cl, Ok lines) /\ length lines = length (rs_rules x) /\
    forall i r l, nth_error (rs_rules x) i = Some r -> nth_error lines i = Some l ->
      line_of bt pc fr (option_map y_vals y) i r l /\
      exists ex covered, l_examples l = Some ex /\ examples_from bt fr (option_map y_vals y) r covered /\
        (n = (-1)%Z -> Forall2 (example_of bt cf fr ex) covered (frows ex)) /\
        ((0 < n)%Z -> length (frows ex) = Nat.min (Z.to_nat n) (length covered) /\ NoDup (labels (frows ex)) /\
           forall rd, In rd (frows ex) -> exists rv, In rv covered /\ example_of bt cf fr ex rv rd).
Proof.
  intros w cl x cf pc sel bt X names fr y n R B S LY NN. destruct (prediction_frame_views _ _ _ _ _ _ _ _ _ R S) as (df & E & V).
  assert (LEN := views_length _ _ _ _ V). assert (CP := prediction_frame_columns _ _ _ _ _ _ _ _ _ _ R S E). assert (D := suits_distinct _ _ _ _ _ _ _ _ _ S V).
  destruct (mapM_lines (fun ir : nat * rule => stat_of w cf pc df (option_map y_vals y) (Some n) (fst ir) (snd ir))
              (fun i r l => line_of bt pc fr (option_map y_vals y) i r l /\
      exists ex covered, l_examples l = Some ex /\ examples_from bt fr (option_map y_vals y) r covered /\
        (n = (-1)%Z -> Forall2 (example_of bt cf fr ex) covered (frows ex)) /\
        ((0 < n)%Z -> length (frows ex) = Nat.min (Z.to_nat n) (length covered) /\ NoDup (labels (frows ex)) /\
           forall rd, In rd (frows ex) -> exists rv, In rv covered /\ example_of bt cf fr ex rv rd)) (rs_rules x) 0) as (lines & EM & LL & N).
  { intros i r I. cbn [fst snd]. destruct (views_rule _ _ _ _ _ _ _ _ _ _ S V I) as (cov & EC & FC & PK & F). unfold stat_of. rewrite EC. cbn [bind].
    destruct (examples_table w cf df fr bt (option_map y_vals y) r cov n V CP D FC PK) as (c & covered & K1 & K2 & K3 & K4).
    { intros j rw rd Hi Hd. eapply views_sat; eauto. eapply suits_conds; eauto. }
    { intros l El. destruct y as [y'|]; [|discriminate]. cbn in El. injection El as <-. apply LY; auto. }
    assert (EX : exists ex, examples_of w cf df cov (option_map y_vals y) n = Ok ex /\ (n = (-1)%Z -> Forall2 (example_of bt cf fr ex) covered (frows ex)) /\
        ((0 < n)%Z -> length (frows ex) = Nat.min (Z.to_nat n) (length covered) /\ NoDup (labels (frows ex)) /\
           forall rd, In rd (frows ex) -> exists rv, In rv covered /\ example_of bt cf fr ex rv rd)).
    { rewrite K4. destruct NN as [->|[NP SO]].
      - exists c. split; [reflexivity|]. split; [auto|lia].
      - replace (n =? -1)%Z with false by (symmetry; apply Z.eqb_neq; lia). replace (0 <? n)%Z with true by (symmetry; apply Z.ltb_lt; lia).
        eexists. split; [reflexivity|]. split; [lia|]. intros _. cbn [with_rows frows].
        destruct (SO (Nat.min (Z.to_nat n) (length (frows c))) (frows c) ltac:(lia)) as (S1 & rest & S2). rewrite S1, (Forall2_length _ _ _ K2). split; auto. split.
        + assert (Q : NoDup (labels (w_sample w (Nat.min (Z.to_nat n) (length (frows c))) (frows c) ++ rest))).
          { unfold labels in *. eapply Permutation_NoDup; [apply Permutation_map; exact S2|exact K3]. }
          unfold labels in Q. rewrite map_app in Q. unfold labels. clear -Q. revert Q. generalize (map rlab (w_sample w (Nat.min (Z.to_nat n) (length (frows c))) (frows c))) as a. induction a as [|z a IH]; intros Q; [constructor|].
          cbn in Q. inversion Q as [|? ? N1 N2]; subst. constructor; auto. intros I. apply N1. apply in_or_app. auto.
        + intros rd I0. assert (I2 : In rd (frows c)) by (eapply Permutation_in; [symmetry; exact S2|apply in_or_app; auto]).
          apply In_nth_error in I2. destruct I2 as (j & Nj). assert (J : j < length covered) by (rewrite (Forall2_length _ _ _ K2); apply nth_error_Some; congruence).
          destruct (nth_error covered j) as [rv|] eqn:Nv; [|apply nth_error_None in Nv; lia]. exists rv. split; [eapply nth_error_In; eauto|].
          destruct (Forall2_nth _ _ _ _ _ K2 Nv) as (rd' & Nd & X1). rewrite Nj in Nd. injection Nd as <-. exact X1. }
    destruct EX as (ex & EE & X1 & X2).
    destruct (count_picks _ _ _ F) as (k & K & EK). destruct y as [y'|]; cbn [option_map] in *.
    - destruct (score_perf _ pc _ (y_vals y') _ F (proj1 (LY y' eq_refl))) as (p & rc & E1 & E2 & PF). cbv zeta in *. rewrite E1. cbn [bind]. rewrite E2. cbn [bind]. rewrite EE. cbn [bind].
      eexists. split; [reflexivity|]. split; [|exists ex, covered; auto]. unfold line_of. cbn [l_idx l_str l_n l_coverage l_perf].
      split; auto. split; auto. split; [exists k; auto|]. split; [rewrite LEN; reflexivity|]. eexists; split; [reflexivity|exact PF].
    - cbn [bind]. rewrite EE. cbn [bind]. eexists. split; [reflexivity|]. split; [|exists ex, covered; auto]. unfold line_of. cbn [l_idx l_str l_n l_coverage l_perf].
      split; auto. split; auto. split; [exists k; auto|]. split; [rewrite LEN; reflexivity|reflexivity]. }
  exists lines. split; [|split; auto].
  unfold clf_rule_stats, ensure_bt. rewrite (rd_rs _ _ _ _ _ R), B. cbn [bind]. rewrite E. cbn [bind]. rewrite (rd_cf _ _ _ _ _ R), (rd_pc _ _ _ _ _ R). cbn [attr bind].
  destruct y as [y'|]; cbn [option_map bind] in *; [rewrite (proj1 (LY y' eq_refl)), LEN, Nat.eqb_refl; cbn [bind]|]; rewrite EM; reflexivity.
Qed.
Print Assumptions C86_examples.
(** any other n_examples raises ValueError, unless there is no rule to show examples of *)
Theorem C86_invalid : forall w cl x cf pc sel bt X names fr y n,
  ready cl x cf pc sel -> c_bt cl = Some bt -> suits cl x cf sel bt X names fr ->
  (forall y', y = Some y' -> length (y_vals y') = length (frows fr) /\ py_eq cf cf = true) ->
  (n < -1 \/ n = 0)%Z ->
  snd (clf_rule_stats w cl X y (Some n) names) = (if rs_rules x then Ok [] else Err ValueError).
Proof.
  intros w cl x cf pc sel bt X names fr y n R B S LY NN. destruct (prediction_frame_views _ _ _ _ _ _ _ _ _ R S) as (df & E & V).
  assert (LEN := views_length _ _ _ _ V). assert (CP := prediction_frame_columns _ _ _ _ _ _ _ _ _ _ R S E). assert (D := suits_distinct _ _ _ _ _ _ _ _ _ S V).
  unfold clf_rule_stats, ensure_bt. rewrite (rd_rs _ _ _ _ _ R), B. cbn [bind snd]. rewrite E. cbn [bind]. rewrite (rd_cf _ _ _ _ _ R), (rd_pc _ _ _ _ _ R). cbn [attr bind].
  assert (LC : (match option_map y_vals y with Some l => if length l =? length (frows df) then Ok tt else Err ValueError | None => Ok tt end) = Ok tt).
  { destruct y as [y'|]; cbn [option_map]; auto. rewrite (proj1 (LY y' eq_refl)), LEN, Nat.eqb_refl. reflexivity. }
  rewrite LC. cbn [bind]. destruct (rs_rules x) as [|r rs] eqn:ER; [reflexivity|]. cbn [length seq combine mapM fst snd].
  assert (I : In r (rs_rules x)) by (rewrite ER; left; auto).
  destruct (views_rule _ _ _ _ _ _ _ _ _ _ S V I) as (cov & EC & FC & PK & F). unfold stat_of. rewrite EC. cbn [bind].
  destruct (examples_table w cf df fr bt (option_map y_vals y) r cov n V CP D FC PK) as (c & covered & K1 & K2 & K3 & K4).
  { intros j rw rd Hi Hd. eapply views_sat; eauto. eapply suits_conds; eauto. }
  { intros l El. destruct y as [y'|]; [|discriminate]. cbn in El. injection El as <-. apply LY; auto. }
  assert (EE : examples_of w cf df cov (option_map y_vals y) n = Err ValueError).
  { rewrite K4. destruct (Z.eqb_spec n (-1)); [lia|]. destruct (Z.ltb_spec 0 n); [lia|]. reflexivity. }
  destruct y as [y'|]; cbn [option_map] in *.
  - destruct (score_perf _ pc _ (y_vals y') _ F (proj1 (LY y' eq_refl))) as (p & rc & E1 & E2 & PF). cbv zeta in *. rewrite E1. cbn [bind]. rewrite E2. cbn [bind]. rewrite EE. reflexivity.
  - cbn [bind]. rewrite EE. reflexivity.
Qed.
Print Assumptions C86_invalid.
Lemma firstn_sample e c : sample_ok (mkworld e c (fun n l => firstn n l)).
Proof. intros k l L. cbn [w_sample]. split; [apply firstn_length_le; auto|]. exists (skipn k l). rewrite firstn_skipn. apply Permutation_refl. Qed.

(** the hypotheses are met *)
Example C86_nonvacuous : exists lines, clf_rule_stats w1 people_clf (DFrame newcomers) (Some newcomers_y) (Some (-1)%Z) None = (people_clf, Ok lines) /\ length lines = 1 /\
  forall i r l, nth_error (rs_rules people_rules) i = Some r -> nth_error lines i = Some l ->
    line_of people_bt (PInt 1) newcomers (Some (y_vals newcomers_y)) i r l /\
    exists ex covered, l_examples l = Some ex /\ examples_from people_bt newcomers (Some (y_vals newcomers_y)) r covered /\ Forall2 (example_of people_bt (s_ "t") newcomers ex) covered (frows ex).
Proof.
  destruct (C86_examples w1 people_clf people_rules (s_ "t") (PInt 1) [s_ "v"] people_bt (DFrame newcomers) None newcomers (Some newcomers_y) (-1) people_ready eq_refl people_suits) as (lines & E & L & H).
  - intros y' Y. injection Y as <-. split; reflexivity.
  - left. reflexivity.
  - exists lines. split; auto. split; auto. intros i r l N1 N2. destruct (H i r l N1 N2) as (A & ex & cov & B1 & B2 & B3 & _). split; auto. exists ex, cov. auto.
Qed.
Example C86_sampled : sample_ok w1 /\ option_map (map (fun l => option_map (fun ex => map rcells (frows ex)) (l_examples l)))
    (match snd (clf_rule_stats w1 people_clf (DFrame newcomers) (Some newcomers_y) (Some 1%Z) None) with Ok l => Some l | Err _ => None end) =
  Some [Some [[s_ ">-1.0"; PNaN; s_ "a"; PInt 1]]].
Proof. split; [apply firstn_sample|]. vm_compute. reflexivity. Qed.
