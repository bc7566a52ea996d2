(** * Prop_EditScore.v : what adding or removing a rule does to accuracy, precision, recall and F1 (C111) *)
From Verif Require Import SessionFacts ScoreFacts Demo Prop_Helpers Prop_Prep Prop_Fit Prop_Classifier Prop_FitModel Prop_Text Prop_Session Prop_Edit Allowance.
From Coq Require Import Lqa.
Open Scope nat_scope.

(** ** The specification *)
(** the row is covered by the rule [r] and by none of the rules [l] *)
Definition only_by (bt : bin_transformer) (cols : list pyval) (r : rule) (l : list rule) (rw : row) : Prop :=
  holds bt cols rw r /\ ~ some_holds bt cols rw l.
(** the scores of a model before and after [good] examples of the positive class and [bad] others become positive predictions *)
Record more_positives (n positives good bad : nat) (acc acc' prec prec' rec rec' f f' : option Q) : Prop := mkmore {
  mp_accuracy : exists a a', acc = Some a /\ acc' = Some a' /\ (a' == a + (qn good - qn bad) / qn n)%Q;
  mp_no_recall : positives = 0 -> rec = None /\ rec' = None;
  mp_recall : positives <> 0 -> exists r r', rec = Some r /\ rec' = Some r' /\ (r' == r + qn good / qn positives)%Q;
  mp_nothing : good + bad = 0 -> prec' = prec;
  mp_first : prec = None -> good + bad <> 0 -> exists p', prec' = Some p' /\ (p' == qn good / qn (good + bad))%Q;
  mp_precision : forall p, prec = Some p -> exists p', prec' = Some p' /\
    ((p < p')%Q <-> (p * qn (good + bad) < qn good)%Q) /\ ((p' < p)%Q <-> (qn good < p * qn (good + bad))%Q);
  mp_no_f1 : f = None -> good = 0 -> f' = None;
  mp_first_f1 : f = None -> good <> 0 -> exists q', f' = Some q' /\ (0 < q')%Q;
  mp_f1 : forall q, f = Some q -> exists q', f' = Some q' /\
    ((q < q')%Q <-> (q * qn (good + bad) < qn (2 * good))%Q) /\ ((q' < q)%Q <-> (qn (2 * good) < q * qn (good + bad))%Q) }.

(** ** Counting *)
Lemma tally_extra (a : bool) (acts : list bool) : forall (p p' new : list bool), length p = length acts -> Forall2 (fun q q' => q = true -> q' = true) p p' ->
  new = map (fun x => andb (snd x) (negb (fst x))) (combine p p') ->
  tally a true acts p' = tally a true acts p + tally a true acts new /\ tally a false acts p = tally a false acts p' + tally a true acts new.
Proof.
  induction acts as [|x acts IH]; intros p p' new L F E.
  - destruct p; [|discriminate L]. inversion F; subst. cbn. split; reflexivity.
  - destruct p as [|q p]; [discriminate L|]. inversion F as [|? q' ? p2 H F']; subst. cbn [combine map fst snd]. rewrite !tally_cons.
    injection L as L. destruct (IH p p2 _ L F' eq_refl) as [E1 E2]. rewrite E1, E2.
    destruct (Bool.eqb x a), q, q'; cbn [Bool.eqb andb negb]; try lia; discriminate (H eq_refl).
Qed.
Lemma tally_pos (acts p : list bool) : length p = length acts -> tally true true acts p + tally true false acts p = count_true acts.
Proof. intros L. symmetry. apply count_acts. auto. Qed.
Lemma mediant t n g m p p' : 0 < n -> (p == qn t / qn n)%Q -> (p' == qn (t + g) / qn (n + m))%Q ->
  ((p < p')%Q <-> (p * qn m < qn g)%Q) /\ ((p' < p)%Q <-> (qn g < p * qn m)%Q).
Proof.
  intros H E E'.
  assert (A : (0 < qn n)%Q) by (apply qn_pos; lia). assert (B : (0 < qn (n + m))%Q) by (apply qn_pos; lia).
  assert (X : (p * qn n == qn t)%Q) by (rewrite E; field; intros Z; rewrite Z in A; discriminate A).
  assert (X' : (p' * qn (n + m) == qn (t + g))%Q) by (rewrite E'; field; intros Z; rewrite Z in B; discriminate B).
  assert (S : (qn (n + m) == qn n + qn m)%Q) by apply qn_plus.
  assert (T : (qn (t + g) == qn t + qn g)%Q) by apply qn_plus.
  assert (D : ((p' - p) * qn (n + m) == qn g - p * qn m)%Q).
  { assert (Y : ((p' - p) * qn (n + m) == p' * qn (n + m) - p * qn (n + m))%Q) by ring. rewrite Y, X', T, S.
    assert (Z : (qn t + qn g - p * (qn n + qn m) == qn t + qn g - p * qn n - p * qn m)%Q) by ring. rewrite Z, X. ring. }
  split; split; intros L.
  - assert (Q : (0 < (p' - p) * qn (n + m))%Q) by (apply Qmult_lt_0_compat; [lra|exact B]). lra.
  - apply Qnot_le_lt. intros K. assert (Q : ((p' - p) * qn (n + m) <= 0 * qn (n + m))%Q) by (apply Qmult_le_compat_r; [lra|apply Qlt_le_weak; exact B]). lra.
  - assert (Q : (0 < (p - p') * qn (n + m))%Q) by (apply Qmult_lt_0_compat; [lra|exact B]).
    assert (Y : ((p - p') * qn (n + m) == - ((p' - p) * qn (n + m)))%Q) by ring. lra.
  - apply Qnot_le_lt. intros K. assert (Q : (0 * qn (n + m) <= (p' - p) * qn (n + m))%Q) by (apply Qmult_le_compat_r; [lra|apply Qlt_le_weak; exact B]). lra.
Qed.
Lemma more_scores (acts p p' new : list bool) : acts <> [] -> length p = length acts -> Forall2 (fun q q' => q = true -> q' = true) p p' ->
  new = map (fun x => andb (snd x) (negb (fst x))) (combine p p') ->
  exists acc acc' prec prec' rec rec' f f',
    score_accuracy acts p = Ok acc /\ score_accuracy acts p' = Ok acc' /\ score_precision acts p = Ok prec /\ score_precision acts p' = Ok prec' /\
    score_recall acts p = Ok rec /\ score_recall acts p' = Ok rec' /\ score_f1 acts p = Ok f /\ score_f1 acts p' = Ok f' /\
    more_positives (length acts) (count_true acts) (tally true true acts new) (tally false true acts new) acc acc' prec prec' rec rec' f f'.
Proof.
  intros NE L F E. assert (L' : length p' = length acts) by (apply Forall2_length in F; congruence).
  destruct (tally_extra true acts p p' new L F E) as [T1 T2]. destruct (tally_extra false acts p p' new L F E) as [T3 T4].
  assert (NP : 0 < length acts) by (destruct acts; [congruence|cbn [length]; lia]).
  destruct (accuracy_value acts p (eq_sym L)) as [_ A]. destruct (A NE) as (a & EA & VA & _). clear A.
  destruct (accuracy_value acts p' (eq_sym L')) as [_ A]. destruct (A NE) as (a' & EA' & VA' & _). clear A.
  assert (P1 := tally_pos acts p L). assert (P2 := tally_pos acts p' L').
  destruct (precision_value acts p (eq_sym L)) as [PN PS]. destruct (precision_value acts p' (eq_sym L')) as [PN' PS'].
  destruct (recall_value acts p (eq_sym L)) as [RN RS]. destruct (recall_value acts p' (eq_sym L')) as [RN' RS'].
  assert (PREC : exists prec, score_precision acts p = Ok prec /\ (tally true true acts p + tally false true acts p = 0 -> prec = None) /\ (tally true true acts p + tally false true acts p <> 0 -> exists q, prec = Some q /\ (q == qn (tally true true acts p) / qn (tally true true acts p + tally false true acts p))%Q)).
  { destruct (Nat.eq_dec (tally true true acts p + tally false true acts p) 0) as [Z|Z]; [exists None; rewrite (PN Z); split; [reflexivity|split; [reflexivity|intros; contradiction]]|].
    destruct (PS Z) as (q & Eq & V & _). exists (Some q). split; [exact Eq|]. split; [intros; contradiction|]. intros _. exists q. auto. }
  assert (PREC' : exists prec, score_precision acts p' = Ok prec /\ (tally true true acts p' + tally false true acts p' = 0 -> prec = None) /\ (tally true true acts p' + tally false true acts p' <> 0 -> exists q, prec = Some q /\ (q == qn (tally true true acts p') / qn (tally true true acts p' + tally false true acts p'))%Q)).
  { destruct (Nat.eq_dec (tally true true acts p' + tally false true acts p') 0) as [Z|Z]; [exists None; rewrite (PN' Z); split; [reflexivity|split; [reflexivity|intros; contradiction]]|].
    destruct (PS' Z) as (q & Eq & V & _). exists (Some q). split; [exact Eq|]. split; [intros; contradiction|]. intros _. exists q. auto. }
  assert (RECS : exists rec rec', score_recall acts p = Ok rec /\ score_recall acts p' = Ok rec' /\ (count_true acts = 0 -> rec = None /\ rec' = None) /\
     (count_true acts <> 0 -> exists r r', rec = Some r /\ rec' = Some r' /\ (r' == r + qn (tally true true acts new) / qn (count_true acts))%Q)).
  { destruct (Nat.eq_dec (count_true acts) 0) as [Z|Z].
    - exists None, None. rewrite RN, RN' by lia. repeat split; auto; contradiction.
    - destruct RS as (r & Er & Vr & _); [lia|]. destruct RS' as (r' & Er' & Vr' & _); [lia|]. exists (Some r), (Some r'). split; [exact Er|]. split; [exact Er'|]. split; [intros; contradiction|].
      intros _. exists r, r'. split; [reflexivity|]. split; [reflexivity|]. rewrite Vr, Vr', P1, P2, T1, qn_plus. field. rewrite qn_eq0. exact Z. }
  destruct PREC as (prec & EP & PZ & PV). destruct PREC' as (prec' & EP' & PZ' & PV'). destruct RECS as (rec & rec' & ER & ER' & RZ & RV).
  assert (FF : exists f f', score_f1 acts p = Ok f /\ score_f1 acts p' = Ok f' /\ (f = None -> tally true true acts new = 0 -> f' = None) /\
     (f = None -> tally true true acts new <> 0 -> exists q', f' = Some q' /\ (0 < q')%Q) /\
     (forall q, f = Some q -> exists q', f' = Some q' /\ ((q < q')%Q <-> (q * qn (tally true true acts new + tally false true acts new) < qn (2 * tally true true acts new))%Q) /\
        ((q' < q)%Q <-> (qn (2 * tally true true acts new) < q * qn (tally true true acts new + tally false true acts new))%Q))).
  { destruct (f1_value acts p (eq_sym L)) as [F0 F1], (f1_value acts p' (eq_sym L')) as [F0' F1']. cbv zeta in *.
    destruct (Nat.eq_dec (tally true true acts p) 0) as [Z|Z].
    - destruct (Nat.eq_dec (tally true true acts new) 0) as [Y|Y].
      + exists None, None. split; [auto|]. split; [apply F0'; lia|]. split; [auto|]. split; [intros; contradiction|]. intros q K. discriminate K.
      + destruct F1' as (q' & K1 & K2 & _); [lia|]. exists None, (Some q'). split; [auto|]. split; [exact K1|]. split; [intros; contradiction|]. split; [|intros q K; discriminate K].
        intros _ _. exists q'. split; [reflexivity|]. rewrite K2. apply Qlt_shift_div_l; [apply qn_pos; lia|]. rewrite Qmult_0_l. apply qn_pos; lia.
    - destruct (F1 Z) as (q & K1 & K2 & _). destruct F1' as (q' & K1' & K2' & _); [lia|]. exists (Some q), (Some q'). split; [exact K1|]. split; [exact K1'|].
      split; [intros K; discriminate K|]. split; [intros K; discriminate K|]. intros q0 K. injection K as <-. exists q'. split; [reflexivity|].
      apply (mediant (2 * tally true true acts p) (2 * tally true true acts p + tally false true acts p + tally true false acts p)); [lia|exact K2|].
      rewrite K2'. replace (2 * tally true true acts p') with (2 * tally true true acts p + 2 * tally true true acts new) by lia.
      replace (2 * tally true true acts p + 2 * tally true true acts new + tally false true acts p' + tally true false acts p') with
        (2 * tally true true acts p + tally false true acts p + tally true false acts p + (tally true true acts new + tally false true acts new)) by lia. reflexivity. }
  destruct FF as (f & f' & EF & EF' & FN & FF1 & FF2).
  exists (Some a), (Some a'), prec, prec', rec, rec', f, f'. split; [exact EA|]. split; [exact EA'|]. split; [exact EP|]. split; [exact EP'|]. split; [exact ER|]. split; [exact ER'|]. split; [exact EF|]. split; [exact EF'|].
  constructor; auto.
  - exists a, a'. split; [reflexivity|]. split; [reflexivity|].
    assert (S : tally true true acts p' + tally false false acts p' + tally false true acts new = tally true true acts p + tally false false acts p + tally true true acts new) by lia.
    assert (S' : (qn (tally true true acts p' + tally false false acts p' + tally false true acts new) == qn (tally true true acts p + tally false false acts p + tally true true acts new))%Q) by (rewrite S; reflexivity).
    rewrite !qn_plus in S'.
    rewrite VA, VA', !qn_plus. assert (N0 : ~ (qn (length acts) == 0)%Q) by (rewrite qn_eq0; lia).
    assert (W : (qn (tally true true acts p') + qn (tally false false acts p') == qn (tally true true acts p) + qn (tally false false acts p) + (qn (tally true true acts new) - qn (tally false true acts new)))%Q) by lra.
    rewrite W. field. exact N0.
  - intros Z. rewrite T1, T3 in *. destruct (tally true true acts new); [|lia]. destruct (tally false true acts new); [|lia]. rewrite !Nat.add_0_r in *.
    assert (score_precision acts p' = score_precision acts p).
    { destruct (Nat.eq_dec (tally true true acts p + tally false true acts p) 0) as [Y|Y]; [rewrite PN, PN'; auto; lia|].
      unfold score_precision. rewrite L, L'. rewrite (count_preds acts p' (eq_sym L')), (count_preds acts p (eq_sym L)), (count_both acts p' (eq_sym L')), (count_both acts p (eq_sym L)). rewrite T1, T3. reflexivity. }
    congruence.
  - intros N Z. destruct (Nat.eq_dec (tally true true acts p + tally false true acts p) 0) as [Y|Y]; [|destruct (PV Y) as (q & Q & _); congruence].
    destruct PV' as (q & Q & V); [lia|]. exists q. split; [exact Q|]. rewrite V, T1, T3. replace (tally true true acts p) with 0 by lia. replace (tally false true acts p) with 0 by lia. reflexivity.
  - intros q N. destruct (Nat.eq_dec (tally true true acts p + tally false true acts p) 0) as [Y|Y]; [rewrite (PZ Y) in N; discriminate N|].
    destruct (PV Y) as (q0 & Q & V). rewrite N in Q. injection Q as <-. destruct PV' as (q' & Q' & V'); [lia|]. exists q'. split; [exact Q'|].
    rewrite T1, T3 in V'. apply (mediant (tally true true acts p) (tally true true acts p + tally false true acts p)); [lia|exact V|]. rewrite V'.
    replace (tally true true acts p + tally true true acts new + (tally false true acts p + tally false true acts new)) with (tally true true acts p + tally false true acts p + (tally true true acts new + tally false true acts new)) by lia. reflexivity.
Qed.

(** ** The calls *)
Lemma edit_keeps_pc w cl k o cl' : adds o k \/ removes k -> perform w cl k = (cl', None) -> c_pc cl' = c_pc cl /\ exists x', c_rs cl' = Some x' .
Proof.
  assert (ED : forall f c1 o', edit cl f = (c1, o') -> o' = Ok tt -> c_pc c1 = c_pc cl /\ exists x', c_rs c1 = Some x').
  { intros f c1 o' Q S. unfold edit in Q. destruct (c_rs cl) as [y|]; [|injection Q as _ <-; discriminate S]. destruct (f (rs_rules y)); injection Q as <- <-; [|discriminate S]. split; [reflexivity|eexists; reflexivity]. }
  assert (W : forall (r : clf * res unit) c1, (let '(cl', o) := r in (cl', match o with Ok _ => None | Err e => Some e end)) = (c1, None) -> exists u, r = (c1, Ok u)).
  { intros [c [u|e]] c1 E; [|discriminate E]. injection E as <-. exists u. reflexivity. }
  intros A P. destruct A as [A|A]; destruct A; cbn [perform] in P.
  all: match type of P with (let '(_, _) := ?r in _) = _ => destruct r as [c9 o9] eqn:Q end; injection P as <- P; destruct o9 as [[]|]; [|discriminate P]; eapply ED; [exact Q|reflexivity].
Qed.
Lemma score_of {A} (metric : list bool -> list bool -> res A) cl X y preds pc a : clf_predict cl X None = (cl, Ok preds) -> c_pc cl = Some pc ->
  metric (map (fun v => py_eq v pc) (y_vals y)) preds = Ok a -> clf_score metric cl X y = (cl, Ok a).
Proof. intros P E M. unfold clf_score. rewrite P, E. cbn [bind attr]. rewrite M. reflexivity. Qed.
Lemma Forall2_from_nth {A B} (R : A -> B -> Prop) : forall l m, length l = length m -> (forall i a b, nth_error l i = Some a -> nth_error m i = Some b -> R a b) -> Forall2 R l m.
Proof.
  induction l as [|a l IH]; intros [|b m] L H; try discriminate L; constructor; [apply (H 0); reflexivity|]. apply IH; [injection L; auto|]. intros i. apply (H (S i)).
Qed.
Lemma counted_fun P pc rows ys a b n m : counted P pc rows ys a b n -> counted P pc rows ys a b m -> n = m.
Proof. intros (l & K & ->) (l' & K' & ->). f_equal. eapply picks_unique; eauto. Qed.
Lemma counted_all_pos pc rows ys n : length ys = length rows -> counted (fun _ => True) pc rows ys true true n -> n = count_true (map (fun v => py_eq v pc) ys).
Proof.
  intros L C. assert (F : Forall2 (fun (rw : row) p => p = true <-> True) rows (map (fun _ => true) rows)) by (clear; induction rows; constructor; tauto).
  assert (C' := count_tally (fun _ => True) pc rows ys _ true true F L). rewrite (counted_fun _ _ _ _ _ _ _ _ C C'). clear -L.
  unfold tally, count_true. revert ys L. induction rows as [|r rows IH]; intros [|y ys] L; try discriminate L; [reflexivity|].
  cbn [map combine filter fst snd]. injection L as L. destruct (py_eq y pc); cbn [Bool.eqb andb length]; [f_equal|]; apply IH; exact L.
Qed.
Lemma scores_between cl cl' X y pc fr preds preds' (N : row -> Prop) good bad positives :
  clf_predict cl X None = (cl, Ok preds) -> clf_predict cl' X None = (cl', Ok preds') -> c_pc cl = Some pc -> c_pc cl' = Some pc ->
  frows fr <> [] -> length preds = length (frows fr) -> length preds' = length (frows fr) -> length (y_vals y) = length (frows fr) ->
  (forall i rw p p', nth_error (frows fr) i = Some rw -> nth_error preds i = Some p -> nth_error preds' i = Some p' -> (p = true -> p' = true) /\ (p' = true /\ p = false <-> N rw)) ->
  counted N pc (frows fr) (y_vals y) true true good -> counted N pc (frows fr) (y_vals y) false true bad ->
  counted (fun _ => True) pc (frows fr) (y_vals y) true true positives ->
  exists acc acc' prec prec' rec rec' f f',
    clf_score score_accuracy cl X y = (cl, Ok acc) /\ clf_score score_accuracy cl' X y = (cl', Ok acc') /\
    clf_score score_precision cl X y = (cl, Ok prec) /\ clf_score score_precision cl' X y = (cl', Ok prec') /\
    clf_score score_recall cl X y = (cl, Ok rec) /\ clf_score score_recall cl' X y = (cl', Ok rec') /\
    clf_score score_f1 cl X y = (cl, Ok f) /\ clf_score score_f1 cl' X y = (cl', Ok f') /\
    more_positives (length (frows fr)) positives good bad acc acc' prec prec' rec rec' f f'.
Proof.
  intros P P' E E' NE L L' LY H G B C. set (acts := map (fun v => py_eq v pc) (y_vals y)). set (new := map (fun x => andb (snd x) (negb (fst x))) (combine preds preds')).
  assert (LA : length acts = length (frows fr)) by (unfold acts; rewrite map_length; exact LY).
  assert (F : Forall2 (fun q q' => q = true -> q' = true) preds preds').
  { apply Forall2_from_nth; [congruence|]. intros i q q' Hq Hq'. destruct (nth_error (frows fr) i) as [rw|] eqn:R; [apply (H i rw q q' R Hq Hq')|].
    apply nth_error_None in R. assert (nth_error preds i <> None) by congruence. apply nth_error_Some in H0. lia. }
  assert (FN : Forall2 (fun rw p => p = true <-> N rw) (frows fr) new).
  { apply Forall2_from_nth; [unfold new; rewrite map_length, combine_length, L, L', Nat.min_id; reflexivity|]. intros i rw q R Hq. unfold new in Hq. rewrite nth_error_map in Hq.
    destruct (nth_error (combine preds preds') i) as [[a b]|] eqn:Q; [|discriminate Hq]. injection Hq as <-. cbn [fst snd].
    assert (Q1 : nth_error preds i = Some a /\ nth_error preds' i = Some b).
    { clear -Q. revert preds' i Q. induction preds as [|u l IH]; intros [|v m] [|i] Q; try discriminate Q; cbn in *; [injection Q as <- <-; auto|apply IH; exact Q]. }
    destruct Q1 as [Q1 Q2]. destruct (H i rw a b R Q1 Q2) as [_ I]. rewrite <- I. destruct a, b; cbn; intuition discriminate. }
  assert (NA : acts <> []) by (intros Z; rewrite Z in LA; destruct (frows fr); [congruence|discriminate LA]).
  assert (LP : length preds = length acts) by congruence.
  destruct (more_scores acts preds preds' new NA LP F eq_refl) as (acc & acc' & prec & prec' & rec & rec' & f & f' & S1 & S2 & S3 & S4 & S5 & S6 & S7 & S8 & MP).
  rewrite LA in MP. rewrite (counted_all_pos pc (frows fr) (y_vals y) positives LY C).
  rewrite (counted_fun _ _ _ _ _ _ _ _ G (count_tally N pc (frows fr) (y_vals y) new true true FN LY)).
  rewrite (counted_fun _ _ _ _ _ _ _ _ B (count_tally N pc (frows fr) (y_vals y) new false true FN LY)).
  exists acc, acc', prec, prec', rec, rec', f, f'. repeat (split; [eapply score_of; eauto|]). exact MP.
Qed.

(** C111, adding a rule: the examples covered by the new rule and by no old one become positive predictions; with [good] of them of the positive class and
    [bad] others, accuracy changes by (good - bad)/n, recall grows by good/positives (so it never falls), precision rises or falls as the share
    of good ones among the newly covered is above or below it, and F1 as that share is above or below half of F1. *)
Theorem C111_adding : forall w cl x cf pc sel bt k o r cl' X fr y good bad positives,
  ready cl x cf pc sel -> c_bt cl = Some bt -> adds o k -> rule_arg o = Ok r -> perform w cl k = (cl', None) ->
  suits cl x cf sel bt X None fr -> (forall c, In c (conds r) -> usable fr cf (cfeat c)) -> length (y_vals y) = length (frows fr) ->
  counted (only_by bt (fcols fr) r (rs_rules x)) pc (frows fr) (y_vals y) true true good ->
  counted (only_by bt (fcols fr) r (rs_rules x)) pc (frows fr) (y_vals y) false true bad ->
  counted (fun _ => True) pc (frows fr) (y_vals y) true true positives ->
  exists acc acc' prec prec' rec rec' f f',
    clf_score score_accuracy cl X y = (cl, Ok acc) /\ clf_score score_accuracy cl' X y = (cl', Ok acc') /\
    clf_score score_precision cl X y = (cl, Ok prec) /\ clf_score score_precision cl' X y = (cl', Ok prec') /\
    clf_score score_recall cl X y = (cl, Ok rec) /\ clf_score score_recall cl' X y = (cl', Ok rec') /\
    clf_score score_f1 cl X y = (cl, Ok f) /\ clf_score score_f1 cl' X y = (cl', Ok f') /\
    more_positives (length (frows fr)) positives good bad acc acc' prec prec' rec rec' f f'.
Proof.
  intros w cl x cf pc sel bt k o r cl' X fr y good bad positives R B A RA P S US LY G BD C.
  destruct (C70_adding _ _ _ _ _ _ _ _ _ _ _ _ _ _ R B A RA P S US) as (preds & preds' & E & E' & L & L' & BA).
  destruct (C01_classifier_predict _ _ _ _ _ _ _ _ _ R B S) as (preds0 & E0 & F0). rewrite E in E0. injection E0 as <-.
  destruct (edit_keeps_pc _ _ _ _ _ (or_introl A) P) as [PC _]. assert (PK := rd_pc _ _ _ _ _ R).
  eapply (scores_between cl cl' X y pc fr preds preds' (only_by bt (fcols fr) r (rs_rules x))); eauto; [congruence|exact (su_rows _ _ _ _ _ _ _ _ S)|].
  intros i rw p p' Ni Np Np'. assert (K := BA i rw p p' Ni Np Np'). cbv beta in K. assert (K0 : p = true <-> some_holds bt (fcols fr) rw (rs_rules x)) by exact (Forall2_nth _ _ _ F0 i _ _ Ni Np).
  split; [intros Q; apply K; left; exact Q|]. unfold only_by. rewrite <- K0. split.
  - intros [Q1 Q2]. apply K in Q1. destruct Q1 as [Q1|Q1]; [congruence|]. split; [exact Q1|congruence].
  - intros [Q1 Q2]. split; [apply K; right; exact Q1|]. destruct p; [destruct (Q2 eq_refl)|reflexivity].
Qed.
Print Assumptions C111_adding.

(** C111, removing a rule: the reverse, for the examples that only the removed rule covered. *)
Theorem C111_removing : forall w cl x cf pc sel bt k cl' x' X fr y,
  ready cl x cf pc sel -> c_bt cl = Some bt -> removes k -> perform w cl k = (cl', None) -> c_rs cl' = Some x' ->
  suits cl x cf sel bt X None fr -> length (y_vals y) = length (frows fr) ->
  exists out, taken_out k (rs_rules x) out /\ forall good bad positives,
  counted (only_by bt (fcols fr) out (rs_rules x')) pc (frows fr) (y_vals y) true true good ->
  counted (only_by bt (fcols fr) out (rs_rules x')) pc (frows fr) (y_vals y) false true bad ->
  counted (fun _ => True) pc (frows fr) (y_vals y) true true positives ->
  exists acc acc' prec prec' rec rec' f f',
    clf_score score_accuracy cl X y = (cl, Ok acc) /\ clf_score score_accuracy cl' X y = (cl', Ok acc') /\
    clf_score score_precision cl X y = (cl, Ok prec) /\ clf_score score_precision cl' X y = (cl', Ok prec') /\
    clf_score score_recall cl X y = (cl, Ok rec) /\ clf_score score_recall cl' X y = (cl', Ok rec') /\
    clf_score score_f1 cl X y = (cl, Ok f) /\ clf_score score_f1 cl' X y = (cl', Ok f') /\
    more_positives (length (frows fr)) positives good bad acc' acc prec' prec rec' rec f' f.
Proof.
  intros w cl x cf pc sel bt k cl' x' X fr y R B A P RX S LY.
  destruct (C70_removing _ _ _ _ _ _ _ _ _ _ _ _ R B A P S) as (out & preds & preds' & T & E & E' & L & L' & BA). exists out. split; [exact T|].
  intros good bad positives G BD C.
  destruct (edit_predict w cl x cf pc sel bt k cl' X None fr []) as (l' & q & q' & ST & RL & Eq & Eq' & _ & _ & BQ); auto.
  { inversion A; subst; intros []. }
  { intros l' ST cs I. left. inversion A; subst; inversion ST; subst; try (match goal with H : prediction_side _ |- _ => destruct H end); unfold found_at, found_first in *;
      repeat match goal with H : _ /\ _ |- _ => destruct H end; match goal with H : map conds _ = _ |- _ => rewrite H end; split_in; apply in_app_iff; cbn; auto. }
  { intros c []. }
  rewrite E in Eq. injection Eq as <-. rewrite E' in Eq'. injection Eq' as <-. unfold rules_of in RL. rewrite RX in RL. injection RL as <-.
  destruct (edit_keeps_pc _ _ _ (OStr []) _ (or_intror A) P) as [PC _]. assert (PK := rd_pc _ _ _ _ _ R).
  assert (Z : exists acc' acc prec' prec rec' rec f' f,
    clf_score score_accuracy cl' X y = (cl', Ok acc') /\ clf_score score_accuracy cl X y = (cl, Ok acc) /\
    clf_score score_precision cl' X y = (cl', Ok prec') /\ clf_score score_precision cl X y = (cl, Ok prec) /\
    clf_score score_recall cl' X y = (cl', Ok rec') /\ clf_score score_recall cl X y = (cl, Ok rec) /\
    clf_score score_f1 cl' X y = (cl', Ok f') /\ clf_score score_f1 cl X y = (cl, Ok f) /\
    more_positives (length (frows fr)) positives good bad acc' acc prec' prec rec' rec f' f).
  { eapply (scores_between cl' cl X y pc fr preds' preds (only_by bt (fcols fr) out (rs_rules x'))); eauto; [congruence|exact (su_rows _ _ _ _ _ _ _ _ S)|].
    intros i rw p' p Ni Np' Np. assert (K := BA i rw p p' Ni Np Np'). cbv beta in K. assert (K0 := BQ i rw p p' Ni Np Np'). cbv beta in K0. destruct K0 as [_ K0]. rewrite <- some_holds_conds in K0.
    split; [intros Q; apply K; left; exact Q|]. unfold only_by. rewrite <- K0. split.
    - intros [Q1 Q2]. apply K in Q1. destruct Q1 as [Q1|Q1]; [congruence|]. split; [exact Q1|congruence].
    - intros [Q1 Q2]. split; [apply K; right; exact Q1|]. destruct p'; [destruct (Q2 eq_refl)|reflexivity]. }
  destruct Z as (acc' & acc & prec' & prec & rec' & rec & f' & f & Z1 & Z2 & Z3 & Z4 & Z5 & Z6 & Z7 & Z8 & MP). exists acc, acc', prec, prec', rec, rec', f, f'. auto 12.
Qed.
Print Assumptions C111_removing.

(** The people model with "[u=b]" added in front: one example becomes a positive prediction, and it is a positive *)
Lemma people_has_bins : c_bt people_clf = Some people_bt. Proof. vm_compute. reflexivity. Qed.
Definition people_more : clf := fst (perform w1 people_clf (InsertAt 0 (OStr ($"[u=b]")))).
Lemma same_result {A B} (x y : A) (u v : B) : (x, Ok u) = (y, Ok v) -> u = v. Proof. intros H. injection H as _ H. exact H. Qed.
Example C111_nonvacuous : exists cl1, perform w1 people_clf (InsertAt 0 (OStr ($"[u=b]"))) = (cl1, None) /\
  let ys := [PInt 1; PInt 1; PInt 0] in let newly := only_by people_bt (fcols newcomers) (Rule_ [c_ "u" "b"]) (rs_rules people_rules) in
  snd (clf_score score_recall people_clf (DFrame newcomers) (YList ys)) = Ok (Some (1 # 2)%Q) /\
  snd (clf_score score_recall cl1 (DFrame newcomers) (YList ys)) = Ok (Some (2 # 2)%Q) /\
  snd (clf_score score_precision people_clf (DFrame newcomers) (YList ys)) = Ok (Some (1 # 2)%Q) /\
  snd (clf_score score_precision cl1 (DFrame newcomers) (YList ys)) = Ok (Some (2 # 3)%Q) /\
  counted newly (PInt 1) (frows newcomers) ys true true 1 /\ counted newly (PInt 1) (frows newcomers) ys false true 0.
Proof.
  eexists. split; [vm_compute; reflexivity|]. intros ys newly. do 4 (split; [vm_compute; reflexivity|]).
  assert (F : Forall2 (fun rw p => p = true <-> newly rw) (frows newcomers) [false; true; false]).
  { destruct (C01_classifier_predict _ _ _ _ _ _ _ _ _ people_ready people_has_bins people_suits) as (preds & E & FP).
    destruct (C70_adding w1 people_clf people_rules (s_ "t") (PInt 1) [s_ "v"] people_bt (InsertAt 0 (OStr ($"[u=b]"))) (OStr ($"[u=b]")) (Rule_ [c_ "u" "b"])
      people_more (DFrame newcomers) None newcomers people_ready people_has_bins) as (p1 & p2 & E1 & E2 & _ & _ & BA).
    { constructor. } { vm_compute. reflexivity. } { vm_compute. reflexivity. } { exact people_suits. }
    { intros c [<-|[]]. split; [apply has_col_iff; reflexivity|reflexivity]. }
    rewrite E in E1. apply same_result in E1. subst p1. assert (V1 : snd (clf_predict people_clf (DFrame newcomers) None) = Ok [true; false; true]) by (vm_compute; reflexivity).
    assert (V2 : snd (clf_predict people_more (DFrame newcomers) None) = Ok [true; true; true]) by (vm_compute; reflexivity).
    rewrite E in V1. cbn [snd] in V1. apply Ok_inj in V1. subst preds. rewrite E2 in V2. cbn [snd] in V2. apply Ok_inj in V2. subst p2. clear E E2.
    assert (K := Forall2_nth _ _ _ FP). unfold newly, only_by.
    apply Forall2_from_nth; [reflexivity|]. intros i rw p R P. assert (I : i < 3) by (assert (Z : nth_error (frows newcomers) i <> None) by congruence; apply nth_error_Some in Z; exact Z).
    destruct i as [|[|[|i]]]; [| | |lia]; injection P as <-.
    - split; [discriminate|]. intros [_ N]. exfalso. apply N. apply (K 0 rw true R eq_refl). reflexivity.
    - split; [|reflexivity]. intros _. destruct (BA 1 rw false true R eq_refl eq_refl) as [H _]. destruct (H eq_refl) as [Z|Z]; [discriminate Z|]. split; [exact Z|].
      intros N. apply (K 1 rw false R eq_refl) in N. discriminate N.
    - split; [discriminate|]. intros [_ N]. exfalso. apply N. apply (K 2 rw true R eq_refl). reflexivity. }
  split; [exact (count_tally newly (PInt 1) (frows newcomers) ys _ true true F eq_refl)|exact (count_tally newly (PInt 1) (frows newcomers) ys _ false true F eq_refl)].
Qed.
