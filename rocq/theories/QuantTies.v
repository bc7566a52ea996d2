(** * QuantTies.v : the bins of a column with repeated numbers *)
From Verif Require Import QuantSpec Cut CutFacts DiscFacts Prop_Bins QuantFacts.
From Coq Require Import Lqa Sorted Qabs Permutation.
Open Scope nat_scope.

Lemma edge_pairs_end {A} (l : list A) : forall a h, edge_pairs (a :: l ++ [h]) = edge_pairs (a :: l) ++ [(last (a :: l) a, h)].
Proof.
  induction l as [|b l IH]; intros a h; [reflexivity|]. cbn [app]. rewrite edge_pairs_cons, IH, (edge_pairs_cons a b l). cbn [app]. f_equal. f_equal. f_equal. f_equal.
  change (last (a :: b :: l) a) with (last (b :: l) a). clear. revert a b. induction l as [|c l IH]; intros a b; [reflexivity|]. change (last (c :: l) b = last (c :: l) a). rewrite <- (IH b c), <- (IH a c). reflexivity.
Qed.
Lemma edge_pairs_In {A} (l : list A) x y : In (x, y) (edge_pairs l) -> In x l /\ In y l.
Proof.
  induction l as [|a [|b l] IH]; [contradiction|contradiction|]. rewrite edge_pairs_cons. intros [E|I]; [injection E as <- <-; split; [left|right; left]; auto|].
  destruct (IH I). split; right; auto.
Qed.
(** bins around at least one inner edge, the first and the last of which hold a number *)
Lemma framed_bins edges e0 em el d1 dm cs : edges = e0 :: em ++ [el] -> map e_at em = d1 :: dm ->
  (exists v x, In v cs /\ num_of v = Some x /\ (e_at e0 <= x /\ x <= d1)%Q) -> (exists v x, In v cs /\ num_of v = Some x /\ (x == e_at el)%Q) -> (forall e, In e em -> (e_at e < e_at el)%Q) ->
  2 <= length (pandas_bins edges cs) /\
  exists ivs, extend_bins (pandas_bins edges cs) = Ok ivs /\ forall l r, In (l, r) ivs -> (l = BNInf \/ exists e, In e em /\ l = e_shown e) /\ (r = BPInf \/ exists e, In e em /\ r = e_shown e).
Proof.
  intros -> EM (v & x & V & NV & X1 & X2) (u & y & U & NU & Y) LT. destruct em as [|e1 em]; [discriminate|]. cbn [map] in EM. injection EM as E1 _.
  unfold pandas_bins. cbn [app]. rewrite edge_pairs_cons, edge_pairs_end. cbn [mark_first]. rewrite map_app. cbn [map filter fst snd].
  assert (P1 : existsb (sorted_into true (e0, e1)) cs = true).
  { apply existsb_exists. exists v. split; auto. unfold sorted_into. cbn [fst snd]. rewrite NV, E1. apply andb_true_intro. split; apply Qle_bool_iff; auto. }
  rewrite P1. rewrite filter_app. cbn [filter fst snd]. set (ek := last (e1 :: em) e1). assert (IK : In ek (e1 :: em)) by (apply last_In; discriminate).
  assert (P2 : existsb (sorted_into false (ek, el)) cs = true).
  { apply existsb_exists. exists u. split; auto. unfold sorted_into. cbn [fst snd]. rewrite NU. apply andb_true_intro. split; [apply Qlt_b_iff; rewrite Y; apply LT; auto|apply Qle_bool_iff; rewrite Y; apply Qle_refl]. }
  rewrite P2. cbn [map]. rewrite map_app. cbn [map snd]. split; [cbn [length]; rewrite app_length; cbn [length]; lia|]. unfold shown_bin at 1 3. cbn [fst snd]. rewrite extend_two. eexists. split; [reflexivity|].
  intros l r I. destruct I as [I|I].
  - injection I as <- <-. split; auto. right. exists e1. split; [left; auto|reflexivity].
  - apply in_app_or in I. destruct I as [I|[I|[] ] ].
    + apply in_map_iff in I. destruct I as ((fl & (a & b)) & S & I). cbn [snd shown_bin fst] in S. injection S as <- <-. apply filter_In in I. destruct I as [I _]. apply in_map_iff in I. destruct I as (ab & S & I). injection S as _ ->.
      apply edge_pairs_In in I. destruct I as [I J]. split; right; eauto.
    + injection I as <- <-. split; auto. right. exists ek. auto.
Qed.
Lemma show_inner lowest x t e : In e (tl (show_edges lowest (x :: t))) -> In (e_at e) t /\ near (e_shown e) (e_at e).
Proof.
  unfold show_edges. cbn [tl]. intros I. apply in_map_iff in I. destruct I as (y & <- & I). cbn [e_at e_shown]. split; auto.
  destruct (float_bound_val (round_frac (infer_precision 2 (x :: t)) y)) as (q & Q & E). exists q. split; auto. rewrite E. apply round_hundredth. apply infer_ge.
Qed.
Lemma show_form lowest x t : exists e, show_edges lowest (x :: t) = e :: tl (show_edges lowest (x :: t)) /\ e_at e = x /\ map e_at (tl (show_edges lowest (x :: t))) = t.
Proof. unfold show_edges. cbn [tl]. eexists. split; [reflexivity|]. split; auto. rewrite map_map. cbn [e_at]. apply map_id. Qed.
Lemma insert_perm x l : Permutation (insert_q x l) (x :: l).
Proof. induction l as [|y l IH]; cbn [insert_q]; auto. destruct (Qle_bool x y); auto. rewrite IH. apply perm_swap. Qed.
Lemma sort_perm l : Permutation (sort_q l) l.
Proof. induction l as [|x l IH]; cbn [sort_q fold_right]; auto. fold (sort_q l). rewrite insert_perm. auto. Qed.
Lemma nums_listed cs : has_missing cs = false -> listed cs (sort_q (nums cs)).
Proof.
  intros M. split; [apply sort_q_sorted|]. exists (nums cs). split; [apply sort_perm|]. unfold nums. induction cs as [|v cs IH]; [constructor|]. cbn [has_missing existsb] in M.
  apply Bool.orb_false_iff in M. destruct M as [M1 M2]. cbn [flat_map]. destruct (num_of v) as [x|] eqn:E; [|discriminate]. cbn [app]. constructor; [exists x; split; auto; rewrite Qred_correct; reflexivity|apply IH; auto].
Qed.
Lemma unique_length vs : length (unique vs) <= length vs.
Proof. apply dedup_len. Qed.

Lemma last_any {A} (l : list A) : forall a b, l <> [] -> last l a = last l b.
Proof. induction l as [|x [|y l] IH]; intros a b N; [congruence|reflexivity|]. change (last (y :: l) a = last (y :: l) b). apply IH. discriminate. Qed.
Lemma ends_of s : 0 < length s -> exists t, s = at_q s 0 :: t /\ last s (at_q s 0) = at_q s (length s - 1) /\ hd 0%Q s = at_q s 0 /\ last s 0%Q = at_q s (length s - 1).
Proof.
  intros L. assert (E : last s 0%Q = at_q s (length s - 1)).
  { unfold at_q. destruct (ends_case s) as [X|[(c & X)|(c & k & d & X)] ]; rewrite X in *; [cbn in L; lia|reflexivity|]. change (c :: k ++ [d]) with ((c :: k) ++ [d]). rewrite !last_last, app_length. cbn [length].
    replace (S (length k) + 1 - 1) with (length (c :: k)) by (cbn; lia). rewrite nth_middle. reflexivity. }
  destruct s as [|a t]; [cbn in L; lia|]. exists t. split; [reflexivity|]. split; [rewrite <- E; apply last_any; discriminate|]. split; [reflexivity|exact E].
Qed.

Lemma map_ends_snoc {A B} (f : A -> B) l m h : map f l = m ++ [h] -> exists em el, l = em ++ [el] /\ map f em = m /\ f el = h.
Proof.
  intros E. destruct (exists_last (l := l)) as (em & el & ->); [intros ->; destruct m; discriminate|]. rewrite map_app in E. cbn [map] in E. apply app_inj_tail in E. destruct E. eauto.
Qed.
Lemma labels_of bins ivs labels : 2 <= length bins -> extend_bins bins = Ok ivs -> fit_labels bins = Ok labels -> labels = map label ivs.
Proof. intros _ X F. unfold fit_labels in F. rewrite X in F. cbn [bind] in F. injection F as <-. reflexivity. Qed.

(** ** the bins of any numeric column without missing values *)
Lemma any_bins cs n labels : is_numeric_col cs = true -> has_missing cs = false -> (2 <= n)%Z -> (n < Z.of_nat (length (unique cs)))%Z ->
  fit_labels (pandas_bins (pandas_cut n cs) cs) = Ok labels ->
  let s := sort_q (nums cs) in let q := Z.to_nat n in
  exists ivs, labels = map label ivs /\
    ((exists i x, 0 < i < q /\ quantile_of s q i x /\ strictly_inside s x) /\ ends_near q (quantile_of s q) ivs \/
     (forall i x, 0 < i < q -> quantile_of s q i x -> ~ strictly_inside s x) /\ ends_near q (equal_step s q) ivs).
Proof.
  intros NC HM N2 NU FL s q. assert (Q2 : 1 < q) by (unfold q; lia). assert (Q0 : 0 < q) by lia. assert (SS : StronglySorted Qle s) by apply sort_q_sorted.
  assert (LS : length s = length cs).
  { unfold s. rewrite sort_length. destruct (nums_listed cs HM) as (_ & s' & P & F). apply Forall2_length in F. rewrite <- (Permutation_length P), sort_length in F. auto. }
  assert (QM : q < length s) by (rewrite LS; assert (K := unique_length cs); unfold q; lia).
  assert (INS : forall x, In x s -> exists v y, In v cs /\ num_of v = Some y /\ (y == x)%Q).
  { intros x I. apply (proj1 (sort_q_In _ _)) in I. unfold nums in I. apply in_flat_map in I. destruct I as (v & Iv & Ix). destruct (num_of v) as [y|] eqn:Ey; [|contradiction]. destruct Ix as [<-|[]].
    exists v, y. split; auto. split; auto. rewrite Qred_correct. reflexivity. }
  assert (NE0 : (at_q s 0 < at_q s (length s - 1))%Q).
  { destruct (two_numbers cs NC) as (a & b & A & B & C); [rewrite HM; lia|]. apply sort_q_In in A, B. fold s in A, B. destruct (sorted_range s a SS A). destruct (sorted_range s b SS B). lra. }
  destruct (ends_of s ltac:(lia)) as (tls & HD & HL & HD0 & HL0). assert (SD : s = sort_q (nums cs)) by reflexivity. clearbody s.
  assert (IMN : In (at_q s 0) s) by (apply nth_In; lia). assert (IMX : In (at_q s (length s - 1)) s) by (apply nth_In; lia).
  assert (Z0 : (quantile s q 0 == at_q s 0)%Q) by (apply quantile_first; auto). assert (ZQ : (quantile s q q == at_q s (length s - 1))%Q) by (apply quantile_last; auto).
  remember (at_q s 0) as mn eqn:EMN. remember (at_q s (length s - 1)) as mx eqn:EMX. rename NE0 into NE. clear EMN EMX.
  assert (INSIDE : forall x, strictly_inside s x <-> (mn < x /\ x < mx)%Q).
  { intros x. split.
    - intros (a & t & E & A & B). rewrite HD in E. injection E as <- <-. rewrite HL in B. auto.
    - intros [A B]. exists mn, tls. rewrite HL. auto. }
  (* quantiles *)
  assert (QE : quantiles s q = quantile s q 0 :: map (quantile s q) (seq 1 (q - 1)) ++ [quantile s q q]).
  { unfold quantiles. change (seq 0 (S q)) with (0 :: seq 1 q). cbn [map]. f_equal. replace q with (S (q - 1)) at 2 by lia. rewrite seq_S, map_app. cbn [map]. replace (1 + (q - 1)) with q by lia. reflexivity. }
  assert (SQ : StronglySorted Qle (quantiles s q)) by (apply sorted_map_seq; intros; apply quantile_mono; auto).
  assert (DR := SQ). rewrite QE in DR. destruct (drop_ok _ _ _ DR) as (dm & dl & DE & DH & _ & DS); [right; rewrite Z0, ZQ; auto|]. rewrite <- QE in DE. assert (DST := DS ltac:(rewrite Z0, ZQ; auto)). clear DS DR.
  assert (DIN : forall x, In x dm -> exists i, 0 < i < q /\ x = quantile s q i /\ (mn < x /\ x < mx)%Q).
  { intros x I. assert (IQ : In x (quantiles s q)).
    { unfold drop_repeated in DE. assert (ID : In x (quantile s q 0 :: dm ++ [dl])) by (right; apply in_or_app; auto). rewrite <- DE in ID. destruct (_ =? 2); auto. eapply dedup_by_In; eauto. }
    destruct (StronglySorted_inv DST) as [S1 F1]. rewrite Forall_forall in F1. assert (A := F1 x ltac:(apply in_or_app; auto)). rewrite Z0 in A.
    assert (B : (x < mx)%Q). { rewrite <- ZQ, <- DH. clear -S1 I. induction dm as [|a dm IH]; [contradiction|]. cbn [app] in S1. inversion S1 as [|? ? S2 F]; subst. destruct I as [<-|I]; [rewrite Forall_forall in F; apply F, in_or_app; right; left; auto|auto]. }
    unfold quantiles in IQ. apply in_map_iff in IQ. destruct IQ as (i & <- & J). apply in_seq in J. exists i. split; [|auto].
    destruct (Nat.eq_dec i 0) as [->|]; [rewrite Z0 in A; lra|]. destruct (Nat.eq_dec i q) as [->|]; [rewrite ZQ in B; lra|]. lia. }
  unfold pandas_cut in FL. rewrite <- SD in FL. fold q in FL. rewrite DE, HM, Nat.add_0_r in FL.
  destruct (show_form true (quantile s q 0) (dm ++ [dl])) as (e0 & SF & E0 & ET). destruct dm as [|d1 dm].
  - (* all quantiles are the least or the greatest number *)
    assert (FB : length (pandas_bins (show_edges true (quantile s q 0 :: [] ++ [dl])) cs) <? 2 = true).
    { apply Nat.ltb_lt. eapply Nat.le_lt_trans; [apply pandas_bins_len|]. rewrite show_len. cbn. lia. }
    rewrite FB in FL. clear FB SF E0 ET e0.
    assert (EQ : Z.pos (Pos.of_nat q) = Z.of_nat q) by (rewrite <- positive_nat_Z, Nat2Pos.id by lia; reflexivity).
    set (w := fun i : nat => Qred (mn + (mx - mn) * (Z.of_nat i # Pos.of_nat q))%Q). set (l0 := Qred (mn - (mx - mn) * (1 # 1000))).
    assert (WM : forall i j, i < j -> (w i < w j)%Q).
    { intros i j H. unfold w. rewrite !Qred_correct. assert (F : ((Z.of_nat i # Pos.of_nat q) < (Z.of_nat j # Pos.of_nat q))%Q) by (unfold Qlt; cbn [Qnum Qden]; nia). nra. }
    assert (WQ : (w q == mx)%Q).
    { unfold w. rewrite Qred_correct. setoid_replace (Z.of_nat q # Pos.of_nat q)%Q with 1%Q by (unfold Qeq; cbn [Qnum Qden]; lia). ring. }
    assert (W0 : (w O == mn)%Q).
    { unfold w. rewrite Qred_correct. change (Z.of_nat 0) with 0%Z. setoid_replace (0 # Pos.of_nat q)%Q with 0%Q by reflexivity. ring. }
    assert (L0 : (l0 < mn)%Q) by (unfold l0; rewrite Qred_correct; lra).
    assert (WS : map w (seq 1 q) = w 1 :: map w (seq 2 (q - 2)) ++ [w q]).
    { replace q with (S (S (q - 2))) at 1 by lia. rewrite seq_S. cbn [seq app map]. rewrite map_app. cbn [map]. replace (1 + S (q - 2)) with q by lia. reflexivity. }
    assert (ST : StronglySorted Qlt (l0 :: map w (seq 1 q))).
    { constructor.
      - clear -WM. clearbody w. generalize 1. induction q as [|k IH]; intros i; cbn [seq map]; constructor; auto. apply Forall_forall. intros y I. apply in_map_iff in I. destruct I as (j & <- & J). apply in_seq in J. apply WM. lia.
      - apply Forall_forall. intros y I. apply in_map_iff in I. destruct I as (j & <- & J). apply in_seq in J. assert (w O < w j)%Q by (apply WM; lia). rewrite W0 in H. lra. }
    assert (EW : equal_width s q = l0 :: map w (seq 1 q)) by (unfold equal_width; rewrite HD0, HL0; reflexivity).
    rewrite EW, (drop_strict _ ST) in FL. clear EW ST.
    destruct (show_form false l0 (map w (seq 1 q))) as (e0 & SF & E0 & ET). rewrite SF in FL.
    destruct (map_ends_snoc e_at (tl (show_edges false (l0 :: map w (seq 1 q)))) (w 1 :: map w (seq 2 (q - 2))) (w q)) as (em & el & EE & M1 & M2); [rewrite ET, WS; reflexivity|].
    assert (INE : forall e, In e em -> exists i, 0 < i < q /\ e_at e = w i /\ near (e_shown e) (w i)).
    { intros e I. assert (IT : In e (tl (show_edges false (l0 :: map w (seq 1 q))))) by (rewrite EE; apply in_or_app; auto). destruct (show_inner _ _ _ _ IT) as [_ NR].
      assert (IM : In (e_at e) (w 1 :: map w (seq 2 (q - 2)))) by (rewrite <- M1; apply in_map; auto). destruct IM as [IM|IM].
      - exists 1. rewrite IM. split; [lia|]. auto.
      - apply in_map_iff in IM. destruct IM as (i & IM & J). apply in_seq in J. exists i. rewrite IM. split; [lia|]. auto. }
    rewrite EE in FL. destruct (framed_bins (e0 :: em ++ [el]) e0 em el (w 1) (map w (seq 2 (q - 2))) cs eq_refl M1) as (L2 & ivs & XB & ENDS).
    + destruct (INS mn IMN) as (v & y & Iv & Nv & Ey). exists v, y. split; auto. split; auto. rewrite Ey, E0. split; [lra|]. assert (H : (w O < w (S O))%Q) by (apply WM; lia). rewrite W0 in H. lra.
    + destruct (INS mx IMX) as (v & y & Iv & Nv & Ey). exists v, y. split; auto. split; auto. rewrite Ey, M2, WQ. reflexivity.
    + intros e I. destruct (INE e I) as (i & J & E & _). rewrite E, M2. apply WM. lia.
    + exists ivs. split; [eapply labels_of; eauto|]. right. split.
      * intros i x J QX IN. apply INSIDE in IN. apply quant_unique in QX; [|lia].
        assert (IQ : In (quantile s q i) (quantiles s q)) by (unfold quantiles; apply in_map, in_seq; lia).
        assert (ID : exists b, In b (quantile s q 0 :: [] ++ [dl]) /\ (b == quantile s q i)%Q).
        { rewrite <- DE. unfold drop_repeated. destruct (_ =? 2); [exists (quantile s q i); split; auto; reflexivity|]. destruct (dedup_by_complete Qeq_bool Qeq_bool_refl [] (quantiles s q) _ IQ) as (b & [[]|Ib] & E). exists b. split; auto. apply Qeq_bool_iff. auto. }
        destruct ID as (b & [<-|[<-|[] ] ] & Eb); rewrite QX, <- Eb in IN; [rewrite Z0 in IN; lra|rewrite DH, ZQ in IN; lra].
      * assert (STEP : forall i, 0 < i < q -> equal_step s q i (w i)).
        { intros i _. exists mn, mx, tls. split; auto. split; auto. unfold w. rewrite Qred_correct. reflexivity. }
        intros l r I. destruct (ENDS l r I) as [[->|(e & Ie & ->)] [->|(e' & Ie' & ->)] ]; split; auto; right.
        -- destruct (INE e' Ie') as (i & J & _ & NR). exists i, (w i). auto.
        -- destruct (INE e Ie) as (i & J & _ & NR). exists i, (w i). auto.
        -- destruct (INE e Ie) as (i & J & _ & NR). exists i, (w i). auto.
        -- destruct (INE e' Ie') as (i & J & _ & NR). exists i, (w i). auto.
  - destruct (map_ends_snoc e_at (tl (show_edges true (quantile s q 0 :: (d1 :: dm) ++ [dl]))) (d1 :: dm) dl) as (em & el & EE & M1 & M2); [rewrite ET; reflexivity|].
    assert (INE : forall e, In e em -> exists i, 0 < i < q /\ e_at e = quantile s q i /\ (mn < e_at e /\ e_at e < mx)%Q /\ near (e_shown e) (quantile s q i)).
    { intros e I. assert (IT : In e (tl (show_edges true (quantile s q 0 :: (d1 :: dm) ++ [dl])))) by (rewrite EE; apply in_or_app; auto). destruct (show_inner _ _ _ _ IT) as [_ NR].
      assert (IM : In (e_at e) (d1 :: dm)) by (rewrite <- M1; apply in_map; auto). destruct (DIN _ IM) as (i & J & E & K). exists i. rewrite <- E. auto. }
    rewrite SF, EE in FL. destruct (framed_bins (e0 :: em ++ [el]) e0 em el d1 dm cs eq_refl M1) as (L2 & ivs & XB & ENDS).
    + destruct (INS mn IMN) as (v & y & Iv & Nv & Ey). exists v, y. split; auto. split; auto. rewrite Ey, E0, Z0. split; [apply Qle_refl|]. destruct (DIN d1) as (_ & _ & _ & K); [left; auto|]. lra.
    + destruct (INS mx IMX) as (v & y & Iv & Nv & Ey). exists v, y. split; auto. split; auto. rewrite Ey, M2, DH, ZQ. reflexivity.
    + intros e I. destruct (INE e I) as (i & J & E & K & _). rewrite M2, DH, ZQ. tauto.
    + assert (FB : length (pandas_bins (e0 :: em ++ [el]) cs) <? 2 = false) by (apply Nat.ltb_ge; auto). rewrite FB in FL.
      exists ivs. split; [eapply labels_of; eauto|]. left. split.
      * destruct (DIN d1) as (i & J & E & K); [left; auto|]. exists i, d1. split; auto. split; [rewrite E; apply quant_spec; auto; lia|apply INSIDE; auto].
      * intros l r I. destruct (ENDS l r I) as [[->|(e & Ie & ->)] [->|(e' & Ie' & ->)] ]; split; auto; right.
        -- destruct (INE e' Ie') as (i & J & _ & _ & NR). exists i, (quantile s q i). split; auto. split; auto. apply quant_spec; auto; lia.
        -- destruct (INE e Ie) as (i & J & _ & _ & NR). exists i, (quantile s q i). split; auto. split; auto. apply quant_spec; auto; lia.
        -- destruct (INE e Ie) as (i & J & _ & _ & NR). exists i, (quantile s q i). split; auto. split; auto. apply quant_spec; auto; lia.
        -- destruct (INE e' Ie') as (i & J & _ & _ & NR). exists i, (quantile s q i). split; auto. split; auto. apply quant_spec; auto; lia.
Qed.
