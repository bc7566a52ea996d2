(** * Prop_Bounds.v : the statistics of the rules and the score of the model (C114) *)
From Verif Require Import FitRun SessionFacts ScoreFacts ClfFacts Demo Prop_Helpers Prop_Prep Prop_Fit Prop_Classifier Prop_FitModel Prop_Edit Prop_EditScore.
From Coq Require Import Lqa.
Open Scope nat_scope.

(** ** The specification *)
(** two reported numbers are equal, or both absent *)
Definition same_number (a b : option Q) : Prop := match a, b with None, None => True | Some p, Some q => (p == q)%Q | _, _ => False end.
(** no row is covered by two of the rules *)
Definition no_overlap (bt : bin_transformer) (fr : frame) (l : list rule) : Prop :=
  ForallOrdPairs (fun r s => forall rw, In rw (frows fr) -> holds bt (fcols fr) rw r -> ~ holds bt (fcols fr) rw s) l.
(** the recall column of rule_stats *)
Definition line_recall (l : stat_line) : option Q := match l_perf l with Some (_, rc, _) => rc | None => None end.
Definition total (l : list Q) : Q := fold_right Qplus 0%Q l.

(** ** Counting *)
Lemma Forall2_In_r {A B} (R : A -> B -> Prop) l l' b : Forall2 R l l' -> In b l' -> exists a, In a l /\ R a b.
Proof. induction 1 as [|x y l l' E F IH]; intros I; [contradiction|]. destruct I as [<-|I]; [exists x; cbn; auto|]. destruct (IH I) as (a & Ha & Ra). exists a. cbn; auto. Qed.
Definition orv (v u : list bool) : list bool := map (fun x => orb (fst x) (snd x)) (combine v u).
Lemma orv_length v u : length v = length u -> length (orv v u) = length v.
Proof. intros L. unfold orv. rewrite map_length, combine_length. lia. Qed.
Lemma orv_nth : forall v u i, length v = length u -> nth_error (orv v u) i = match nth_error v i, nth_error u i with Some p, Some q => Some (orb p q) | _, _ => None end.
Proof.
  induction v as [|p v IH]; intros [|q u] [|i] L; try discriminate L; cbn; try reflexivity. injection L as L. apply (IH u i L).
Qed.
Lemma tally_or a : forall acts v u, length v = length acts -> length u = length acts ->
  tally a true acts v <= tally a true acts (orv v u) /\ tally a true acts u <= tally a true acts (orv v u) /\
  tally a true acts (orv v u) <= tally a true acts v + tally a true acts u /\
  (Forall2 (fun p q => p = true -> q = false) v u -> tally a true acts (orv v u) = tally a true acts v + tally a true acts u).
Proof.
  induction acts as [|x acts IH]; intros [|p v] [|q u] L M; try discriminate L; try discriminate M; [cbn; repeat split; lia|].
  injection L as L. injection M as M. destruct (IH v u L M) as (A & B & C & D). unfold orv in *. cbn [combine map fst snd]. rewrite !tally_cons.
  split; [destruct (Bool.eqb x a), p, q; cbn [Bool.eqb andb orb]; lia|]. split; [destruct (Bool.eqb x a), p, q; cbn [Bool.eqb andb orb]; lia|].
  split; [destruct (Bool.eqb x a), p, q; cbn [Bool.eqb andb orb]; lia|]. intros F. inversion F as [|? ? ? ? H F']; subst. rewrite (D F').
  destruct (Bool.eqb x a), p, q; cbn [Bool.eqb andb orb]; try lia; discriminate (H eq_refl).
Qed.
Definition alls (k : nat) (vs : list (list bool)) : list bool := fold_right orv (repeat false k) vs.
Lemma alls_length k vs : (forall v, In v vs -> length v = k) -> length (alls k vs) = k.
Proof.
  induction vs as [|v vs IH]; intros H; cbn [alls fold_right]; [apply repeat_length|]. fold (alls k vs). rewrite orv_length; [apply H; left; reflexivity|].
  rewrite IH; [apply H; left; reflexivity|]. intros u I. apply H. right. exact I.
Qed.
Lemma tally_none a acts : tally a true acts (repeat false (length acts)) = 0.
Proof. induction acts as [|x acts IH]; [reflexivity|]. cbn [length repeat]. rewrite tally_cons, IH. cbn [Bool.eqb]. rewrite andb_false_r. reflexivity. Qed.
Lemma tally_alls a acts vs : (forall v, In v vs -> length v = length acts) ->
  (forall v, In v vs -> tally a true acts v <= tally a true acts (alls (length acts) vs)) /\
  tally a true acts (alls (length acts) vs) <= list_sum (map (tally a true acts) vs) /\
  (ForallOrdPairs (fun v u => Forall2 (fun p q => p = true -> q = false) v u) vs -> tally a true acts (alls (length acts) vs) = list_sum (map (tally a true acts) vs)).
Proof.
  induction vs as [|v vs IH]; intros H.
  - cbn [alls fold_right map list_sum]. rewrite tally_none. split; [intros v []|]. split; [apply Nat.le_refl|reflexivity].
  - assert (H' : forall u, In u vs -> length u = length acts) by (intros u I; apply H; right; exact I). destruct (IH H') as (A & B & C).
    cbn [alls fold_right]. fold (alls (length acts) vs). destruct (tally_or a acts v (alls (length acts) vs)) as (T1 & T2 & T3 & T4); [apply H; left; reflexivity|apply alls_length; exact H'|].
    cbn [map list_sum fold_right]. fold (list_sum (map (tally a true acts) vs)). split; [intros u [<-|I]; [exact T1|specialize (A u I); lia]|]. split; [lia|].
    intros F. inversion F as [|? ? F1 F2]; subst. rewrite T4, C; auto. clear - F1 H H'. assert (L := H v (or_introl eq_refl)).
    apply Forall2_from_nth; [rewrite alls_length; auto|]. intros i p q Np Nq E. subst p. revert q Nq. induction vs as [|u vs IHv]; intros q Nq.
    + cbn [alls fold_right] in Nq. apply nth_error_In in Nq. apply repeat_spec in Nq. exact Nq.
    + inversion F1 as [|? ? G1 G2]; subst. cbn [alls fold_right] in Nq. fold (alls (length acts) vs) in Nq. rewrite orv_nth in Nq.
      2:{ rewrite alls_length; [apply H'; left; reflexivity|intros z I; apply H'; right; exact I]. }
      destruct (nth_error u i) as [p1|] eqn:U; [|discriminate Nq]. destruct (nth_error (alls (length acts) vs) i) as [q1|] eqn:W; [|discriminate Nq]. injection Nq as <-.
      rewrite (Forall2_nth _ _ _ G1 i _ _ Np U eq_refl). cbn [orb]. apply IHv; auto.
      * intros z [<-|I]; [exact L|apply H; right; right; exact I].
      * intros z I. apply H'. right. exact I.
Qed.
Lemma alls_In k vs : (forall v, In v vs -> length v = k) -> forall i, i < k -> (nth_error (alls k vs) i = Some true <-> exists v, In v vs /\ nth_error v i = Some true).
Proof.
  induction vs as [|v vs IH]; intros H i I.
  - cbn [alls fold_right]. split; [|intros (v & [] & _)]. intros N. apply nth_error_In in N. apply repeat_spec in N. discriminate N.
  - assert (H' : forall u, In u vs -> length u = k) by (intros u J; apply H; right; exact J). cbn [alls fold_right]. fold (alls k vs). rewrite orv_nth by (rewrite alls_length; auto; apply H; left; reflexivity).
    assert (Lv := H v (or_introl eq_refl)). destruct (nth_error v i) as [p|] eqn:V; [|apply nth_error_None in V; lia].
    destruct (nth_error (alls k vs) i) as [q|] eqn:Q; [|apply nth_error_None in Q; rewrite alls_length in Q by exact H'; lia]. specialize (IH H' i I). rewrite Q in IH. split.
    + intros E. destruct p; [exists v; split; [left; reflexivity|exact V]|]. cbn [orb] in E. destruct IH as [IH _]. destruct (IH E) as (u & J & N). exists u. split; [right; exact J|exact N].
    + intros (u & [<-|J] & N); [rewrite V in N; injection N as ->; reflexivity|]. destruct IH as [_ IH]. assert (E : Some q = Some true) by (apply IH; exists u; auto). injection E as ->. rewrite orb_true_r. reflexivity.
Qed.
Lemma Forall2_det {A} (P : A -> Prop) l v u : Forall2 (fun a p => p = true <-> P a) l v -> Forall2 (fun a p => p = true <-> P a) l u -> v = u.
Proof.
  intros F. revert u. induction F as [|a p l v H F IH]; intros u G; inversion G as [|? q ? u' K G']; subst; [reflexivity|]. f_equal; [|apply IH; exact G'].
  destruct p, q; try reflexivity; [symmetry; apply K, H; reflexivity|apply H, K; reflexivity].
Qed.

(** ** The vectors of the rules *)
Definition covers_of (bt : bin_transformer) (fr : frame) (r : rule) (v : list bool) : Prop := Forall2 (fun rw p => p = true <-> holds bt (fcols fr) rw r) (frows fr) v.
Lemma vectors cl x cf sel bt X names fr df : suits cl x cf sel bt X names fr -> views bt cf fr df ->
  exists vs, Forall2 (covers_of bt fr) (rs_rules x) vs.
Proof.
  intros S V. assert (H : forall r, In r (rs_rules x) -> exists v, covers_of bt fr r v).
  { intros r I. destruct (views_rule _ _ _ _ _ _ _ _ _ _ S V I) as (cov & _ & _ & _ & F). eexists. exact F. }
  revert H. generalize (rs_rules x). induction l as [|r l IH]; intros H; [exists []; constructor|].
  destruct (H r (or_introl eq_refl)) as (v & Hv). destruct IH as (vs & Hs); [intros s I; apply H; right; exact I|]. exists (v :: vs). constructor; assumption.
Qed.
Lemma union_of bt fr (l : list rule) vs preds : Forall2 (covers_of bt fr) l vs -> Forall2 (fun rw p => p = true <-> some_holds bt (fcols fr) rw l) (frows fr) preds ->
  preds = alls (length (frows fr)) vs /\ forall v, In v vs -> length v = length (frows fr).
Proof.
  intros F P. assert (L : forall v, In v vs -> length v = length (frows fr)).
  { intros v I. apply (Forall2_In_r _ _ _ _ F) in I. destruct I as (r & _ & C). apply Forall2_length in C. congruence. }
  split; [|exact L]. eapply Forall2_det; [exact P|]. apply Forall2_from_nth; [rewrite alls_length; auto|]. intros i rw p R N.
  assert (I : i < length (frows fr)) by (apply nth_error_Some; congruence). assert (K := alls_In _ _ L i I). rewrite N in K. split.
  - intros ->. destruct K as [K _]. destruct (K eq_refl) as (v & J & Nv). apply (Forall2_In_r _ _ _ _ F) in J. destruct J as (r & Ir & C). exists r. split; [exact Ir|].
    apply (Forall2_nth _ _ _ C i _ _ R Nv). reflexivity.
  - intros (r & Ir & H). destruct (Forall2_In_l _ _ _ _ F Ir) as (v & J & C). destruct K as [_ K]. assert (E : Some p = Some true); [|injection E; auto]. apply K. exists v. split; [exact J|].
    destruct (nth_error v i) as [q|] eqn:Q; [|apply nth_error_None in Q; rewrite (L v J) in Q; lia]. f_equal. apply (Forall2_nth _ _ _ C i _ _ R Q). exact H.
Qed.

(** ** One line, from its vector *)
Lemma line_numbers bt pc fr ys i r l v : line_of bt pc fr (Some ys) i r l -> covers_of bt fr r v -> length ys = length (frows fr) ->
  let acts := map (fun y => py_eq y pc) ys in
  l_n l = count_true v /\ exists p rc f, l_perf l = Some (p, rc, f) /\
    fraction p (tally true true acts v) (tally true true acts v + tally false true acts v) /\ fraction rc (tally true true acts v) (tally true true acts v + tally true false acts v) /\
    (tally true true acts v = 0 -> f = None) /\
    (tally true true acts v <> 0 -> exists q, f = Some q /\ (q == qn (2 * tally true true acts v) / qn (2 * tally true true acts v + tally false true acts v + tally true false acts v))%Q).
Proof.
  intros (_ & _ & (cov & PK & EN) & _ & o & EO & tp & fp & fn & C1 & C2 & C3 & F1 & F2 & F3 & F4) C L acts. destruct o as [[p rc] f]. cbn [fst snd] in *.
  destruct (count_picks _ _ _ C) as (k & PK' & EK). rewrite (picks_unique _ _ _ _ PK PK') in EN. split; [congruence|]. exists p, rc, f. split; [exact EO|].
  rewrite (counted_fun _ _ _ _ _ _ _ _ C1 (count_tally _ pc _ _ v true true C L)) in *. rewrite (counted_fun _ _ _ _ _ _ _ _ C2 (count_tally _ pc _ _ v false true C L)) in *.
  rewrite (counted_fun _ _ _ _ _ _ _ _ C3 (count_tally _ pc _ _ v true false C L)) in *. auto.
Qed.
Lemma qn_div_le a b n : a <= b -> n <> 0 -> (qn a / qn n <= qn b / qn n)%Q.
Proof. intros H N. unfold Qdiv. apply Qmult_le_compat_r; [apply qn_le; exact H|]. apply Qinv_le_0_compat. change 0%Q with (qn 0). apply qn_le. lia. Qed.
Lemma total_fractions n (ts : list nat) (qs : list Q) : n <> 0 -> Forall2 (fun t q => (q == qn t / qn n)%Q) ts qs -> (total qs == qn (list_sum ts) / qn n)%Q.
Proof.
  intros N F. assert (NZ : ~ (qn n == 0)%Q) by (rewrite qn_eq0; exact N). induction F as [|t q ts qs E F IH]; cbn [total fold_right list_sum].
  - change (qn 0) with 0%Q. field. exact NZ.
  - fold (total qs). fold (list_sum ts). rewrite IH, E, qn_plus. field. exact NZ.
Qed.

(** C114. On any usable data with labels: the model predicts True at least as often as each rule covers and at most as often as all rules together cover; its
    recall is at least that of each rule and at most the sum of the recalls; and both upper bounds are attained when no row is covered twice. *)
Theorem C114_bounds : forall w cl x cf pc sel bt X fr y,
  ready cl x cf pc sel -> c_bt cl = Some bt -> suits cl x cf sel bt X None fr -> length (y_vals y) = length (frows fr) ->
  exists lines preds recall, clf_rule_stats w cl X (Some y) None None = (cl, Ok lines) /\ clf_predict cl X None = (cl, Ok preds) /\
    clf_score score_recall cl X y = (cl, Ok recall) /\
    (forall l, In l lines -> l_n l <= count_true preds) /\ count_true preds <= list_sum (map l_n lines) /\
    (no_overlap bt fr (rs_rules x) -> count_true preds = list_sum (map l_n lines)) /\
    match recall with
    | None => forall l, In l lines -> line_recall l = None
    | Some q => exists rs, map line_recall lines = map Some rs /\ (forall r, In r rs -> (r <= q)%Q) /\ (q <= total rs)%Q /\ (no_overlap bt fr (rs_rules x) -> (q == total rs)%Q)
    end.
Proof.
  intros w cl x cf pc sel bt X fr y R B S LY.
  destruct (C47_rule_stats w cl x cf pc sel bt X None fr (Some y) R B S) as (lines & EL & LL & N); [intros y' E; injection E as <-; exact LY|]. cbn [option_map] in N.
  destruct (C01_classifier_predict _ _ _ _ _ _ _ _ _ R B S) as (preds & EP & FP).
  destruct (prediction_frame_views _ _ _ _ _ _ _ _ _ R S) as (df & _ & V). destruct (vectors _ _ _ _ _ _ _ _ _ S V) as (vs & FV).
  destruct (union_of bt fr _ vs preds FV FP) as [EU LV]. set (acts := map (fun v => py_eq v pc) (y_vals y)).
  assert (LA : length acts = length (frows fr)) by (unfold acts; rewrite map_length; exact LY). rewrite <- LA in EU.
  assert (LV' : forall v, In v vs -> length v = length acts) by (intros v I; rewrite LA; apply LV; exact I).
  assert (LP : length acts = length preds) by (apply Forall2_length in FP; congruence).
  destruct (tally_alls true acts vs LV') as (T1 & T2 & T3), (tally_alls false acts vs LV') as (U1 & U2 & U3). rewrite <- EU in *.
  assert (FL : Forall2 (fun l v => exists i r, line_of bt pc fr (Some (y_vals y)) i r l /\ covers_of bt fr r v) lines vs).
  { apply Forall2_from_nth; [apply Forall2_length in FV; congruence|]. intros i l v Nl Nv. destruct (nth_error (rs_rules x) i) as [r|] eqn:Nr.
    - exists i, r. split; [apply (N i r l Nr Nl)|apply (Forall2_nth _ _ _ FV i _ _ Nr Nv)].
    - apply nth_error_None in Nr. assert (Z : nth_error lines i <> None) by congruence. apply nth_error_Some in Z. lia. }
  assert (LN : map l_n lines = map (fun v => tally true true acts v + tally false true acts v) vs).
  { clear - FL LY LV'. induction FL as [|l v ls vs (i & r & LO & C) F IH]; [reflexivity|]. cbn [map]. f_equal; [|apply IH; intros u I; apply LV'; right; exact I].
    destruct (line_numbers _ _ _ _ _ _ _ _ LO C LY) as [-> _]. apply count_preds. symmetry. apply LV'. left. reflexivity. }
  assert (SUM : list_sum (map l_n lines) = list_sum (map (tally true true acts) vs) + list_sum (map (tally false true acts) vs)).
  { rewrite LN. clear. induction vs as [|v vs IH]; [reflexivity|]. cbn [map list_sum fold_right]. fold (list_sum (map (fun v => tally true true acts v + tally false true acts v) vs)). rewrite IH.
    fold (list_sum (map (tally true true acts) vs)). fold (list_sum (map (tally false true acts) vs)). lia. }
  assert (OV : no_overlap bt fr (rs_rules x) -> ForallOrdPairs (fun v u => Forall2 (fun p q => p = true -> q = false) v u) vs).
  { unfold no_overlap. intros O. clear - O FV. induction FV as [|r v rs vs C F IH]; [constructor|]. inversion O as [|? ? O1 O2]; subst. constructor; [|apply IH; exact O2].
    apply Forall_forall. intros u I. apply (Forall2_In_r _ _ _ _ F) in I. destruct I as (s & Is & Cs). rewrite Forall_forall in O1. specialize (O1 s Is).
    apply Forall2_from_nth; [apply Forall2_length in C, Cs; congruence|]. intros i p q Np Nq E. destruct q; [exfalso|reflexivity].
    destruct (nth_error (frows fr) i) as [rw|] eqn:NR.
    - apply (O1 rw (nth_error_In _ _ NR)); [apply (Forall2_nth _ _ _ C i _ _ NR Np); exact E|apply (Forall2_nth _ _ _ Cs i _ _ NR Nq); reflexivity].
    - apply nth_error_None in NR. apply Forall2_length in C. assert (Z : nth_error v i <> None) by congruence. apply nth_error_Some in Z. lia. }
  destruct (recall_value acts preds LP) as [R0 R1]. cbv zeta in R0, R1.
  assert (RC : exists recall, score_recall acts preds = Ok recall /\ fraction recall (tally true true acts preds) (tally true true acts preds + tally true false acts preds)).
  { destruct (Nat.eq_dec (tally true true acts preds + tally true false acts preds) 0) as [Z|Z]; [exists None; rewrite (R0 Z); split; [reflexivity|split; [reflexivity|contradiction]]|].
    destruct (R1 Z) as (q & E & Vq & _). exists (Some q). split; [exact E|]. split; [contradiction|]. intros _. exists q. auto. }
  destruct RC as (recall & ER & FR). exists lines, preds, recall. split; [exact EL|]. split; [exact EP|].
  split; [eapply score_of; [exact EP|exact (rd_pc _ _ _ _ _ R)|exact ER]|].
  rewrite (count_preds acts preds LP), SUM.
  split; [|split; [lia|split]].
  { intros l I. apply (in_map l_n) in I. rewrite LN in I. apply in_map_iff in I. destruct I as (v & <- & J). specialize (T1 v J). specialize (U1 v J). lia. }
  { intros O. rewrite (T3 (OV O)), (U3 (OV O)). reflexivity. }
  assert (POS : forall v, In v vs -> tally true true acts v + tally true false acts v = count_true acts) by (intros v I; apply tally_pos; apply LV'; exact I).
  rewrite (tally_pos acts preds (eq_sym LP)) in FR. destruct (Nat.eq_dec (count_true acts) 0) as [Z|Z].
  - destruct FR as [FR _]. rewrite (FR Z). intros l I. apply (Forall2_In_l _ _ _ _ FL) in I. destruct I as (v & J & i & r & LO & C).
    destruct (line_numbers _ _ _ _ _ _ _ _ LO C LY) as (_ & p & rc & f & E & _ & F2 & _). unfold line_recall. rewrite E. apply F2. fold acts. rewrite (POS v J). exact Z.
  - destruct FR as [_ FR]. destruct (FR Z) as (q & -> & Vq).
    assert (RS : exists rs, map line_recall lines = map Some rs /\ Forall2 (fun t r => (r == qn t / qn (count_true acts))%Q) (map (tally true true acts) vs) rs).
    { clear - FL LY POS Z. induction FL as [|l v ls vs (i & r & LO & C) F IH]; [exists []; split; [reflexivity|constructor]|].
      destruct IH as (rs & E1 & E2); [intros u I; apply POS; right; exact I|]. destruct (line_numbers _ _ _ _ _ _ _ _ LO C LY) as (_ & p & rc & f & E & _ & F2 & _).
      fold acts in F2. rewrite (POS v (or_introl eq_refl)) in F2. destruct F2 as [_ F2]. destruct (F2 Z) as (q & -> & Vq). exists (q :: rs). cbn [map]. split; [unfold line_recall at 1; rewrite E, E1; reflexivity|].
      constructor; assumption. }
    destruct RS as (rs & E1 & E2). exists rs. split; [exact E1|]. split; [|split].
    + intros r I. apply (Forall2_In_r _ _ _ _ E2) in I. destruct I as (t & It & Vt). apply in_map_iff in It. destruct It as (v & <- & J). rewrite Vt, Vq. apply qn_div_le; auto.
    + rewrite Vq, (total_fractions _ _ _ Z E2). apply qn_div_le; auto.
    + intros O. rewrite Vq, (total_fractions _ _ _ Z E2), (T3 (OV O)). reflexivity.
Qed.
Print Assumptions C114_bounds.

Lemma fraction_same a b n d : fraction a n d -> fraction b n d -> same_number a b.
Proof.
  intros [A0 A1] [B0 B1]. destruct (Nat.eq_dec d 0) as [Z|Z]; [rewrite (A0 Z), (B0 Z); exact I|]. destruct (A1 Z) as (p & -> & E), (B1 Z) as (q & -> & E'). cbn. rewrite E, E'. reflexivity.
Qed.
(** C114, a model of one rule: the one line of rule_stats gives the number of True predictions and the precision, recall and F1 of the model. *)
Theorem C114_one_rule : forall w cl x cf pc sel bt X fr y r,
  ready cl x cf pc sel -> c_bt cl = Some bt -> suits cl x cf sel bt X None fr -> length (y_vals y) = length (frows fr) -> rs_rules x = [r] ->
  exists l preds p rc f p' rc' f', clf_rule_stats w cl X (Some y) None None = (cl, Ok [l]) /\ clf_predict cl X None = (cl, Ok preds) /\ l_perf l = Some (p, rc, f) /\
    clf_score score_precision cl X y = (cl, Ok p') /\ clf_score score_recall cl X y = (cl, Ok rc') /\ clf_score score_f1 cl X y = (cl, Ok f') /\
    l_n l = count_true preds /\ same_number p p' /\ same_number rc rc' /\ same_number f f'.
Proof.
  intros w cl x cf pc sel bt X fr y r R B S LY RR.
  destruct (C47_rule_stats w cl x cf pc sel bt X None fr (Some y) R B S) as (lines & EL & LL & N); [intros y' E; injection E as <-; exact LY|]. cbn [option_map] in N.
  destruct (C01_classifier_predict _ _ _ _ _ _ _ _ _ R B S) as (preds & EP & FP). rewrite RR in *. destruct lines as [|l [|l2 ls]]; try discriminate LL.
  destruct (N 0 r l eq_refl eq_refl) as [LO _]. set (acts := map (fun v => py_eq v pc) (y_vals y)).
  assert (C : covers_of bt fr r preds).
  { eapply Forall2_imp; [|exact FP]. intros rw p H. rewrite H. split; [intros (s & [<-|[]] & K); exact K|intros K; exists r; split; [left; reflexivity|exact K]]. }
  destruct (line_numbers _ _ _ _ _ _ _ _ LO C LY) as (EN & p & rc & f & EF & F1 & F2 & F3 & F4). fold acts in F1, F2, F3, F4.
  assert (LP : length acts = length preds) by (apply Forall2_length in FP; unfold acts; rewrite map_length; congruence).
  assert (PK := rd_pc _ _ _ _ _ R).
  destruct (score_perf _ pc _ _ _ C LY) as (p' & rc' & E1 & E2 & tp & fp & fn & C1 & C2 & C3 & G1 & G2 & _). fold acts in E1, E2. cbn [fst snd] in G1, G2.
  rewrite (counted_fun _ _ _ _ _ _ _ _ C1 (count_tally _ pc _ _ preds true true C LY)) in *. rewrite (counted_fun _ _ _ _ _ _ _ _ C2 (count_tally _ pc _ _ preds false true C LY)) in *.
  rewrite (counted_fun _ _ _ _ _ _ _ _ C3 (count_tally _ pc _ _ preds true false C LY)) in *. fold acts in G1, G2.
  destruct (f1_value acts preds LP) as [H0 H1]. cbv zeta in H0, H1.
  assert (FF : exists f', score_f1 acts preds = Ok f' /\ same_number f f').
  { destruct (Nat.eq_dec (tally true true acts preds) 0) as [Z|Z].
    - exists None. split; [exact (H0 Z)|]. rewrite (F3 Z). exact I.
    - destruct (H1 Z) as (q & E & Vq & _). destruct (F4 Z) as (q0 & -> & V0). exists (Some q). split; [exact E|]. cbn. rewrite V0, Vq. reflexivity. }
  destruct FF as (f' & E3 & SF). exists l, preds, p, rc, f, p', rc', f'. split; [exact EL|]. split; [exact EP|]. split; [exact EF|].
  split; [eapply score_of; eauto|]. split; [eapply score_of; eauto|]. split; [eapply score_of; eauto|].
  split; [exact EN|]. split; [eapply fraction_same; eauto|]. split; [eapply fraction_same; eauto|exact SF].
Qed.
Print Assumptions C114_one_rule.

(** The people model with "[u=b]" added: two rules, one row each ... and with its own rule: one line, the numbers of the model *)
Definition three_ys : ydata := YList [PInt 1; PInt 1; PInt 0].
Example C114_nonvacuous :
  snd (clf_score score_recall people_clf (DFrame newcomers) three_ys) = Ok (Some (1 # 2)%Q) /\
  (exists l, snd (clf_rule_stats w1 people_clf (DFrame newcomers) (Some three_ys) None None) = Ok [l] /\ l_n l = 2 /\ line_recall l = Some (1 # 2)%Q) /\
  snd (clf_score score_recall people_more (DFrame newcomers) three_ys) = Ok (Some (2 # 2)%Q) /\
  (exists l1 l2, snd (clf_rule_stats w1 people_more (DFrame newcomers) (Some three_ys) None None) = Ok [l1; l2] /\ l_n l1 + l_n l2 = 3 /\ line_recall l1 = Some (1 # 2)%Q /\ line_recall l2 = Some (1 # 2)%Q).
Proof.
  split; [vm_compute; reflexivity|]. split; [eexists; split; [vm_compute; reflexivity|]; split; vm_compute; reflexivity|]. split; [vm_compute; reflexivity|].
  eexists. eexists. split; [vm_compute; reflexivity|]. split; [vm_compute; reflexivity|]. split; vm_compute; reflexivity.
Qed.
