(** * Prop_Bins.v : C79 -- which columns fit discretises, and into how many bins *)
From Verif Require Import TrainSpec TrainView ClfFacts FitFacts FitRun PrepFacts Prop_Fit Prop_FitModel Prop_Helpers Prop_Train Prop_Cut Demo.
From Verif Require Import BinSpec Cut CutFacts.
From Coq Require Import Lqa Sorted.
Open Scope nat_scope.

(** ** distinct values *)
Lemma pigeon {A} (eqb : A -> A -> bool) : (forall a b, eqb a b = eqb b a) -> (forall a b c, eqb a b = true -> eqb b c = true -> eqb a c = true) ->
  forall us R, (forall u, In u us -> exists r, In r R /\ eqb u r = true) -> ForallOrdPairs (fun u v => eqb u v <> true) us -> length us <= length R.
Proof.
  intros SY TR us. induction us as [|u us IH]; intros R H P; [cbn; lia|]. inversion P as [|? ? F P']; subst. rewrite Forall_forall in F.
  destruct (H u) as (r & Ir & Er); [left; auto|]. apply in_split in Ir. destruct Ir as (R1 & R2 & ->).
  assert (L : length us <= length (R1 ++ R2)).
  { apply IH; auto. intros v Iv. destruct (H v) as (s & Is & Es); [right; auto|]. exists s. split; auto. apply in_app_or in Is. apply in_or_app.
    destruct Is as [Is|[<-|Is]]; auto. exfalso. apply (F v Iv). apply (TR u r v); auto. rewrite SY. auto. }
  rewrite app_length in *. cbn [length]. lia.
Qed.
Lemma more_than_unique n vs : more_than n vs <-> (n < Z.of_nat (length (unique vs)))%Z.
Proof.
  split.
  - intros (us & L & I & P). assert (length us <= length (unique vs)); [|lia]. apply (pigeon uniq_eq uniq_eq_sym uniq_eq_trans).
    + intros u Iu. specialize (I u Iu). clear -I. assert (G : forall l seen, In u l -> exists r, (In r seen \/ In r (dedup_by uniq_eq seen l)) /\ uniq_eq u r = true).
      { induction l as [|a l IH]; intros seen H; [contradiction|]. cbn [dedup_by]. destruct H as [->|H].
        - destruct (existsb (fun b => uniq_eq b u) seen) eqn:E.
          + apply existsb_exists in E. destruct E as (b & B & E). exists b. split; auto. rewrite uniq_eq_sym. auto.
          + exists u. split; [right; left; auto|apply uniq_eq_refl].
        - destruct (existsb (fun b => uniq_eq b a) seen); [apply IH; auto|]. destruct (IH (seen ++ [a]) H) as (r & [R|R] & E); [|exists r; split; auto; right; right; auto].
          apply in_app_or in R. destruct R as [R|[<-|[]]]; [exists r|exists a]; split; auto. right. left. auto. }
      destruct (G vs [] I) as (r & [ [] | R ] & E). exists r. auto.
    + exact P.
  - intros L. exists (unique vs). split; auto. split; [intros u; apply unique_In|]. destruct (dedup_pairs uniq_eq [] vs) as [P _]. fold (unique vs) in P.
    clear -P. induction P as [|a l F P IH]; constructor; auto. eapply Forall_impl; [|exact F]. cbv beta. unfold same_label. intros b E K. congruence.
Qed.
Lemma numeric_iff vs : numeric vs <-> is_numeric_col vs = true.
Proof.
  unfold numeric, number, is_numeric_col. rewrite forallb_forall. split; intros H v I; specialize (H v I).
  - destruct H as [(z & ->)|[(m & k & ->) | -> ] ]; reflexivity.
  - destruct v; try discriminate; eauto.
Qed.

(** ** number of bins *)
Lemma dedup_len {A} (eqb : A -> A -> bool) l : forall seen, length (dedup_by eqb seen l) <= length l.
Proof. induction l as [|a l IH]; intros seen; cbn [dedup_by length]; [lia|]. destruct (existsb _ seen); cbn [length]; [specialize (IH seen)|specialize (IH (seen ++ [a]))]; lia. Qed.
Lemma drop_len l : length (drop_repeated l) <= length l.
Proof. unfold drop_repeated. destruct (_ =? 2); [lia|apply dedup_len]. Qed.
Lemma show_len lowest l : length (show_edges lowest l) = length l.
Proof. rewrite <- (show_at lowest l) at 2. rewrite map_length. reflexivity. Qed.
Lemma edge_pairs_len {A} (l : list A) : length (edge_pairs l) = pred (length l).
Proof. induction l as [|a [|b t] IH]; [reflexivity|reflexivity|]. rewrite edge_pairs_cons. cbn [length] in *. rewrite IH. reflexivity. Qed.
Lemma filter_len {A} (p : A -> bool) l : length (filter p l) <= length l.
Proof. induction l as [|a l IH]; cbn [filter]; [lia|]. destruct (p a); cbn [length]; lia. Qed.
Lemma pandas_bins_len edges vs : length (pandas_bins edges vs) <= pred (length edges).
Proof.
  unfold pandas_bins. rewrite map_length. etransitivity; [apply filter_len|]. rewrite <- edge_pairs_len. rewrite <- (mark_first_snd (edge_pairs edges)) at 2. rewrite map_length. lia.
Qed.
Lemma cut_len n vs : length (pandas_cut n vs) <= S (Z.to_nat n).
Proof.
  unfold pandas_cut. destruct (_ <? 2); rewrite show_len; (etransitivity; [apply drop_len|]).
  - unfold equal_width. cbn [length]. rewrite map_length, seq_length. lia.
  - unfold quantiles. rewrite map_length, seq_length. lia.
Qed.

(** ** at least two bins *)
Lemma dedup_id l : forall seen, ForallOrdPairs (fun a b => ~ (a == b)%Q) l -> (forall a b, In a seen -> In b l -> ~ (a == b)%Q) -> dedup_by Qeq_bool seen l = l.
Proof.
  induction l as [|x l IH]; intros seen P H; cbn [dedup_by]; [auto|]. inversion P as [|? ? F P']; subst. rewrite Forall_forall in F.
  destruct (existsb (fun b => Qeq_bool b x) seen) eqn:E.
  - exfalso. apply existsb_exists in E. destruct E as (b & B & E). apply Qeq_bool_iff in E. apply (H b x); auto. left; auto.
  - f_equal. apply IH; auto. intros a b A B. apply in_app_or in A. destruct A as [A|[<-|[]]]; [apply H; auto; right; auto|auto].
Qed.
Lemma strict_pairs l : StronglySorted Qlt l -> ForallOrdPairs (fun a b => ~ (a == b)%Q) l.
Proof. intros S. apply all_differ_spec, lt_differ, S. Qed.
Lemma drop_strict l : StronglySorted Qlt l -> drop_repeated l = l.
Proof. intros S. unfold drop_repeated. destruct (_ =? 2); auto. apply dedup_id; [apply strict_pairs; auto|contradiction]. Qed.
Lemma fallback_two vs q edges lo a m h : map e_at edges = lo :: a :: m ++ [h] -> StronglySorted Qlt (lo :: a :: m ++ [h]) ->
  (exists v x, In v vs /\ num_of v = Some x /\ (lo <= x /\ x <= a)%Q) -> (exists v x, In v vs /\ num_of v = Some x /\ (x == h)%Q) -> 1 < q ->
  2 <= length (pandas_bins edges vs).
Proof.
  intros E S (v & x & Iv & Nv & Lx & Ax) (u & y & Iu & Nu & Hy) _.
  destruct edges as [|e0 [|e1 es]]; try discriminate. injection E as E0 E1 E2. destruct (map_ends e_at (e0 :: es) lo m h) as (l' & m' & h' & X & _ & X2); [cbn [map]; congruence|].
  injection X as _ X. subst es. unfold pandas_bins. rewrite map_length, edge_pairs_cons. cbn [mark_first].
  destruct (edge_pairs_snoc e1 m' h') as (p & EP & _). rewrite EP, map_app. cbn [map filter].
  assert (P1 : existsb (sorted_into true (e0, e1)) vs = true).
  { apply existsb_exists. exists v. split; auto. unfold sorted_into. cbn [fst snd]. rewrite Nv, E0, E1. apply andb_true_intro. split; apply Qle_bool_iff; auto. }
  cbn [fst snd]. rewrite P1. cbn [length]. rewrite filter_app, app_length. cbn [filter fst snd].
  assert (P2 : existsb (sorted_into false (last (e1 :: m') e1, h')) vs = true).
  { apply existsb_exists. exists u. split; auto. unfold sorted_into. cbn [fst snd]. rewrite Nu, X2. apply andb_true_intro. split; [|apply Qle_bool_iff; rewrite Hy; apply Qle_refl].
    apply Qlt_b_iff. rewrite Hy. assert (IL : In (last (e1 :: m') e1) (e1 :: m')) by (apply last_In; discriminate).
    assert (MM : map e_at (e1 :: m') = a :: m).
    { cbn [map]. rewrite E1. f_equal. rewrite map_app in E2. cbn [map] in E2. apply app_inj_tail in E2. tauto. }
    apply (in_map e_at) in IL. rewrite MM in IL. apply StronglySorted_inv in S. destruct S as [S' _]. clear -IL S'. change (a :: m ++ [h]) with ((a :: m) ++ [h]) in S'. revert S' IL. generalize (a :: m) as l, (e_at (last (e1 :: m') e1)) as z.
    induction l as [|b l IH]; intros z S I; [contradiction|]. cbn [app] in S. inversion S as [|? ? S' F]; subst. destruct I as [->|I]; [|apply IH; auto].
    rewrite Forall_forall in F. apply F. apply in_or_app. right. left. auto. }
  rewrite P2. cbn [length]. lia.
Qed.
Lemma cut_two n vs : (1 < n)%Z -> is_numeric_col vs = true -> has_missing vs = false -> (n < Z.of_nat (length (unique vs)))%Z -> 2 <= length (pandas_bins (pandas_cut n vs) vs).
Proof.
  intros N NC HM U. unfold pandas_cut. rewrite HM, Nat.add_0_r. set (s := sort_q (nums vs)). set (q := Z.to_nat n). assert (Q1 : 1 < q) by (unfold q; lia).
  destruct (_ <? 2) eqn:FB; [|apply Nat.ltb_ge in FB; exact FB]. clear FB.
  assert (S : StronglySorted Qle s) by apply sort_q_sorted.
  assert (IN : forall x, In x s -> exists v y, In v vs /\ num_of v = Some y /\ (y == x)%Q).
  { intros x I. apply (proj1 (sort_q_In _ _)) in I. unfold nums in I. apply in_flat_map in I. destruct I as (v & Iv & Ix). destruct (num_of v) as [y|] eqn:Ey; [|contradiction]. destruct Ix as [<-|[]].
    exists v, y. split; auto. split; auto. rewrite Qred_correct. reflexivity. }
  destruct (two_numbers vs NC) as (a & b & A & B & AB); [rewrite HM; lia|]. apply (proj2 (sort_q_In _ _)) in A, B. fold s in A, B.
  assert (SN : s <> []) by (intros Z; rewrite Z in A; contradiction). set (mn := hd 0%Q s). set (mx := last s 0%Q).
  assert (IMN : In mn s) by (unfold mn; destruct s; [congruence|left; auto]). assert (IMX : In mx s) by (apply last_In; auto).
  assert (LO : forall x, In x s -> (mn <= x)%Q).
  { unfold mn. clear -S. intros x I. destruct s as [|z t]; [contradiction|]. inversion S as [|? ? _ F]; subst. rewrite Forall_forall in F. destruct I as [->|I]; [apply Qle_refl|apply F; auto]. }
  assert (HI : forall x, In x s -> (x <= mx)%Q).
  { intros x I. destruct (sorted_range s x S I) as [_ K]. eapply Qle_trans; [exact K|]. unfold at_q, mx. destruct (ends_case s) as [X|[(c & X)|(c & k & d & X)]]; [congruence|rewrite X; apply Qle_refl|]. rewrite X. cbn [length]. rewrite app_length. cbn [length].
    replace (Datatypes.S (length k + 1) - 1) with (length (c :: k)) by (cbn; lia). change (c :: k ++ [d]) with ((c :: k) ++ [d]). rewrite nth_middle, last_last. apply Qle_refl. }
  assert (LT : (mn < mx)%Q) by (pose proof (LO a A); pose proof (HI b B); lra). 
  set (w := fun i : nat => Qred (mn + (mx - mn) * (Z.of_nat i # Pos.of_nat q))%Q).
  assert (EQ : Z.pos (Pos.of_nat q) = Z.of_nat q) by (rewrite <- positive_nat_Z, Nat2Pos.id by lia; reflexivity).
  assert (WM : forall i j, i < j -> (w i < w j)%Q).
  { intros i j H. unfold w. rewrite !Qred_correct. assert (F : ((Z.of_nat i # Pos.of_nat q) < (Z.of_nat j # Pos.of_nat q))%Q) by (unfold Qlt; cbn [Qnum Qden]; nia). nra. }
  assert (WQ : (w q == mx)%Q).
  { unfold w. rewrite Qred_correct. setoid_replace (Z.of_nat q # Pos.of_nat q)%Q with 1%Q by (unfold Qeq; cbn [Qnum Qden]; lia). ring. }
  assert (W0 : (w O == mn)%Q).
  { unfold w. rewrite Qred_correct. change (Z.of_nat 0) with 0%Z. setoid_replace (0 # Pos.of_nat q)%Q with 0%Q by reflexivity. ring. }
  set (l0 := Qred (mn - (mx - mn) * (1 # 1000))). assert (L0 : (l0 < mn)%Q) by (unfold l0; rewrite Qred_correct; lra).
  assert (EW : equal_width s q = l0 :: w 1 :: map w (seq 2 (q - 2)) ++ [w q]).
  { unfold equal_width. fold mn mx l0. f_equal. change (map w (seq 1 q) = w 1 :: map w (seq 2 (q - 2)) ++ [w q]). replace q with (Datatypes.S (Datatypes.S (q - 2))) at 1 by lia.
    rewrite seq_S. cbn [seq app map]. rewrite map_app. cbn [map]. replace (1 + Datatypes.S (q - 2)) with q by lia. reflexivity. }
  assert (ST : StronglySorted Qlt (l0 :: w 1 :: map w (seq 2 (q - 2)) ++ [w q])).
  { assert (ES : w 1 :: map w (seq 2 (q - 2)) ++ [w q] = map w (seq 1 q)).
    { replace q with (Datatypes.S (Datatypes.S (q - 2))) at 3 by lia. rewrite seq_S. cbn [seq app map]. rewrite map_app. cbn [map]. replace (1 + Datatypes.S (q - 2)) with q by lia. reflexivity. }
    rewrite ES. constructor.
    - clear -WM. clearbody w. generalize 1. induction q as [|k IH]; intros i; cbn [seq map]; constructor; auto. apply Forall_forall. intros y I. apply in_map_iff in I. destruct I as (j & <- & J). apply in_seq in J. apply WM. lia.
    - apply Forall_forall. intros y I. apply in_map_iff in I. destruct I as (j & <- & J). apply in_seq in J. assert (w O < w j)%Q by (apply WM; lia). rewrite W0 in H. lra. }
  rewrite EW, (drop_strict _ ST). apply (fallback_two vs q _ l0 (w 1) (map w (seq 2 (q - 2))) (w q)); auto; [apply show_at| |].
  - destruct (IN mn IMN) as (v & y & Iv & Nv & Ey). exists v, y. split; auto. split; auto. rewrite Ey. split; [lra|]. assert (w O < w (Datatypes.S O))%Q by (apply WM; lia). rewrite W0 in H. lra.
  - destruct (IN mx IMX) as (v & y & Iv & Nv & Ey). exists v, y. split; auto. split; auto. rewrite Ey, WQ. reflexivity.
Qed.

(** ** what fit_bins stores *)
Lemma ascending_order ivs : in_order ivs -> ascending ivs.
Proof.
  intros [_ P]. unfold ascending. induction P as [|b l F P IH]; constructor; auto. eapply Forall_impl; [|exact F]. cbv beta. intros c B x y C1 C2.
  apply in_interval_iff in C1, C2. unfold before in B. unfold in_interval, ivl in C1, C2. cbn [fst snd] in C1, C2.
  apply andb_prop in C1, C2. destruct C1 as [_ C1]. destruct C2 as [C2 _].
  assert (K : flt (FFin x) (FFin y) = true) by (eapply fle_lt_trans; [exact C1|]; eapply fle_lt_trans; [exact B|exact C2]).
  cbn [flt] in K. apply Qlt_b_iff. exact K.
Qed.
Lemma missing_spec vs : numeric vs -> ~ In PNaN vs -> has_missing vs = false.
Proof.
  intros N M. apply Bool.not_true_iff_false. intros K. apply existsb_exists in K. destruct K as (v & I & K).
  destruct (N v I) as [(z & ->)|[(m & k & ->) | -> ] ]; [discriminate|discriminate|contradiction].
Qed.
Lemma fit_labels_ends bins ivs : 2 <= length bins -> fit_labels bins = Ok (map label ivs) -> exists ivs', map label ivs' = map label ivs /\ unlimited ivs' /\ length ivs' = length bins /\ extend_bins bins = Ok ivs'.
Proof.
  intros L H. destruct (ends_case bins) as [E|[(a & E)|((l & r) & mid & (l2 & r2) & E)]]; subst bins; try (cbn in L; lia).
  unfold fit_labels in H. rewrite extend_two in H. cbn [bind] in H. exists ((BNInf, r) :: mid ++ [(l2, BPInf)]). split; [injection H as H; exact H|].
  split; [unfold unlimited; eauto|]. split; [cbn [length]; rewrite !app_length; reflexivity|apply extend_two].
Qed.
Lemma bins_exact nbins df ignore bt : nbins_ok nbins -> distinct_cols (fcols df) -> fit_bins pandas_cut nbins df ignore = Ok bt ->
  exists bins, bt = mkbt (Some bins) [] /\ distinct_keys bins /\
  (forall g b, In (g, b) bins -> In g (fcols df) /\ is_numeric_col (column df g) = true /\ existsb (fun f => py_eq f g) ignore = false /\
     exists n ivs, nbins = Some n /\ (2 <= n)%Z /\ (n < Z.of_nat (length (unique (column df g))))%Z /\ 2 <= length b /\ (Z.of_nat (length b) <= n)%Z /\
     b = map label ivs /\ in_order ivs /\ unlimited ivs) /\
  (forall g n, nbins = Some n -> (2 <= n)%Z -> In g (fcols df) -> existsb (fun f => py_eq f g) ignore = false -> is_numeric_col (column df g) = true ->
     has_missing (column df g) = false -> (n < Z.of_nat (length (unique (column df g))))%Z -> exists b, In (g, b) bins).
Proof.
  intros N D H. destruct (fit_bins_ok pandas_cut nbins df ignore pandas_cut_ok N D) as (bins & EB & DK & B). rewrite EB in H. injection H as <-.
  exists bins. split; auto. split; auto. unfold fit_bins in EB. set (nb := match nbins with Some n => n | None => 0%Z end) in *.
  assert (N0 : (nb <? -1)%Z = false /\ (nb <? 0)%Z = false) by (unfold nb; destruct nbins; cbn in N; split; apply Z.ltb_ge; lia). destruct N0 as [N1 N2]. rewrite N1, N2 in EB. cbn [bind] in EB.
  binv EB. rename v into bs, E into EM. injection EB as <-. destruct (mapM_keys _ _ _ EM) as [K1 K2]. split.
  - intros g b I. destruct (B g b I) as (B1 & B2 & B3 & B4). split; auto. split; auto. split; auto. apply filter_In in I. destruct I as [I L2]. cbn [snd] in L2. apply Nat.leb_le in L2.
    destruct (K2 g b I) as [IC FL]. unfold find_continuous_feats in IC. destruct nbins as [n|]; [|contradiction]. cbn in N. destruct (Z.eqb_spec n 0) as [->|NZ]; [contradiction|].
    apply filter_In in IC. destruct IC as [_ P]. apply andb_prop in P. destruct P as [P _]. apply andb_prop in P. destruct P as [_ P]. apply Z.ltb_lt in P. subst nb.
    destruct B4 as (ivs & -> & O). destruct (pandas_cut_ok n (column df g)) as (C1 & _); auto; [lia|].
    destruct (fit_labels_exact (pandas_cut n (column df g)) (column df g) C1) as [[_ K]|(ivs2 & E2 & L & O2 & _)]; [congruence|].
    assert (EL : map label ivs2 = map label ivs) by congruence. rewrite <- EL in *. rewrite map_length in L2. rewrite L in L2.
    destruct (fit_labels_ends _ _ L2 E2) as (ivs' & EQ & U & L' & EX). 
    assert (ivs' = ivs2 \/ True) by auto. exists n.
    assert (LN : length ivs2 <= Z.to_nat n). { rewrite L. etransitivity; [apply pandas_bins_len|]. assert (K := cut_len n (column df g)). lia. }
    assert (OX : in_order ivs'). { assert (OP := pandas_bins_order _ (column df g) C1). assert (F := pandas_bins_finite _ (column df g) C1).
      destruct (ends_case (pandas_bins (pandas_cut n (column df g)) (column df g))) as [E|[(a & E)|((l & r) & mid & (l2 & r2) & E)]]; rewrite E in *; try (cbn in L2; lia).
      rewrite extend_two in EX. injection EX as <-. inversion F as [|? ? F1 F2]; subst. apply Forall_app in F2. destruct F2 as [F2 F3]. inversion F3; subst. eapply ordpairs_ends; eauto; cbn in *; tauto. }
    exists ivs'. split; auto. rewrite map_length. split; [lia|]. split; auto. split; [lia|]. split; [lia|]. split; [congruence|]. split; auto.
  - intros g n -> N3 IG IGN NC HM MU. subst nb. cbv beta iota in EM.
    assert (IC : In g (find_continuous_feats (Some n) df ignore)).
    { unfold find_continuous_feats. destruct (Z.eqb_spec n 0); [lia|]. apply filter_In. split; auto. apply andb_true_intro. split; [apply andb_true_intro; split; auto; apply Z.ltb_lt; auto|rewrite IGN; reflexivity]. }
    rewrite <- K1 in IC. apply in_map_iff in IC. destruct IC as ((g' & b) & EG & IB). cbn [fst] in EG. subst g'. exists b. apply filter_In. split; auto. cbn [snd]. apply Nat.leb_le.
    destruct (K2 g b IB) as [_ FL]. destruct (pandas_cut_ok n (column df g)) as (C1 & _); auto; [lia|].
    destruct (fit_labels_exact (pandas_cut n (column df g)) (column df g) C1) as [[_ K]|(ivs2 & E2 & L & O2 & _)]; [congruence|].
    assert (b = map label ivs2) as -> by congruence. rewrite map_length, L. apply cut_two; auto. lia.
Qed.

Lemma column_eq fr g g' : py_eq g' g = true -> column fr g' = column fr g.
Proof. intros Q. unfold column. apply flat_map_ext. intros r. unfold cell. rewrite (col_pos_py_eq (fcols fr) g' g Q). reflexivity. Qed.
Lemma ignored_one f g : existsb (fun h => py_eq h g) [f] = py_eq f g.
Proof. cbn [existsb]. apply Bool.orb_false_r. Qed.

(** ** C79: after fit with n_discretize_bins = n (or none), the discretised features are not the class; each is a numeric column with more
    than n different values and has 2 to n bins, in ascending order, without gap at either end. Every numeric column without missing values
    that has more than n different values is discretised. *)
Theorem C79_bins_of_fit_partial : forall w cl X y cf pc names init cnopt kw f vs ix cl' fr,
  w_cut w = pandas_cut -> training_input X y cf names f vs ix -> table_of X names fr ->
  let nb := h_nbins (hyper_of cl kw) in
  (nb = None \/ exists n, nb = Some n /\ (0 <= n)%Z) ->
  fit w cl X y cf pc names init cnopt kw = (cl', Ok tt) ->
  exists bt, c_bt cl' = Some bt /\
    (forall g labels, bins_for bt g labels -> py_eq f g = false /\ column_present fr g /\
      exists n cs ivs, nb = Some n /\ (2 <= n)%Z /\ column_values fr g cs /\ numeric cs /\ more_than n cs /\
        labels = map label ivs /\ 2 <= length ivs /\ (Z.of_nat (length ivs) <= n)%Z /\ ascending ivs /\ unlimited ivs) /\
    (forall g labels labels', bins_for bt g labels -> bins_for bt g labels' -> labels' = labels) /\
    (forall g n cs, nb = Some n -> (2 <= n)%Z -> column_present fr g -> py_eq f g = false -> column_values fr g cs -> numeric cs -> ~ In PNaN cs -> more_than n cs ->
      exists labels, bins_for bt g labels).
Proof.
  intros w cl X y cf pc names init cnopt kw f vs ix cl' fr WC T TB nb NB H. destruct (fit_fitted _ _ _ _ _ _ _ _ _ _ _ H) as (df & f' & p & bt & xi & x1 & x2 & FT).
  assert (PRE := ft_pre _ _ _ _ _ _ _ _ _ _ _ _ _ _ _ _ _ _ FT). exists bt. split; [exact (ft_bt _ _ _ _ _ _ _ _ _ _ _ _ _ _ _ _ _ _ FT)|].
  destruct (input_pre _ _ _ _ _ _ _ T) as (df0 & G & HC & EC & EL & NE & TD & PR). rewrite PR, WC in PRE. binv PRE. clear E. binv PRE. destruct v0 as [bt' df']. injection PRE as _ _ _ <-.
  destruct (raw_view _ _ _ _ _ _ _ _ _ T TB TD) as (GF & NF & FF & LV & LD & CP & _ & CELL). assert (G' := G). destruct G' as [W D].
  assert (NO : nbins_ok nb) by (destruct NB as [->|(n & -> & ?)]; cbn; auto).
  unfold fit_transform in E. binv E. rename v0 into bt0. binv E. injection E as <- _. change (fit_nbins cl kw) with nb in E0.
  destruct (bins_exact nb df0 [f] bt0 NO D E0) as (bins & -> & DK & B1 & B2).
  assert (BF : forall g b, bins_for (mkbt (Some bins) []) g b -> exists g', In (g', b) bins /\ py_eq g' g = true).
  { intros g b (bs & g' & X1 & I & Q). cbn [bt_bins] in X1. injection X1 as <-. eauto. }
  split; [|split].
  - intros g labels BI. destruct (BF g labels BI) as (g' & I & Q). destruct (B1 g' labels I) as (I1 & NC & NI & n & ivs & EN & N2 & MU & L2 & LN & -> & O & U). rewrite ignored_one in NI.
    assert (NG : py_eq f g = false). { apply Bool.not_true_iff_false. intros K. assert (py_eq f g' = true) by (eapply py_eq_trans; [exact K|rewrite py_eq_sym; exact Q]). congruence. }
    split; auto. assert (PD : column_present df0 g) by (exists g'; auto). split; [apply CP; auto|]. rewrite (column_eq df0 g g' Q) in NC, MU.
    assert (HG : has_col df0 g = true) by (apply has_col_iff; auto).
    rewrite map_length in L2, LN. exists n, (column df0 g), ivs. split; auto. split; auto. split; [|split; [apply numeric_iff; auto|split; [apply more_than_unique; auto|split; auto; split; auto; split; auto; split; auto; apply ascending_order; auto] ] ].
    split; [rewrite column_length; auto|]. intros i rw u R V. destruct (nth_same _ (frows df0) i rw (eq_sym LD) R) as (rd & Rd).
    apply (CELL i rw rd R Rd g u NG). apply (value_column df0 g i rd u G HG Rd). exact V.
  - intros g b b' BI BI'. destruct (BF g b BI) as (g1 & I1 & Q1). destruct (BF g b' BI') as (g2 & I2 & Q2). 
    assert (Q : py_eq g1 g2 = true) by (eapply py_eq_trans; [exact Q1|rewrite py_eq_sym; exact Q2]).
    clear -DK I1 I2 Q. unfold distinct_keys in DK. induction DK as [|p l F P IH]; [contradiction|]. rewrite Forall_forall in F. destruct I1 as [->|I1], I2 as [I2|I2]; auto.
    + injection I2 as _ <-. reflexivity.
    + specialize (F _ I2). cbn [fst] in F. congruence.
    + subst p. specialize (F _ I1). cbn [fst] in F. rewrite py_eq_sym in F. congruence.
  - intros g n cs EN N2 PG NG CV NU NM MT. assert (PD : column_present df0 g) by (apply CP; auto).
    assert (CV0 : column_values df0 g cs).
    { destruct CV as [LC CV]. split; [congruence|]. intros i rd u Rd V. destruct (nth_same _ (frows fr) i rd LD Rd) as (rw & R). apply (CELL i rw rd R Rd g u NG). eapply CV; eauto. }
    destruct (col_values df0 g cs G PD CV0) as [HG EG]. destruct PD as (g' & I & Q). rewrite <- (column_eq df0 g g' Q) in EG.
    destruct (B2 g' n EN N2 I) as (b & IB).
    + rewrite ignored_one. apply Bool.not_true_iff_false. intros K. assert (py_eq f g = true) by (eapply py_eq_trans; eauto). congruence.
    + rewrite EG. apply numeric_iff. auto.
    + rewrite EG. apply missing_spec; auto.
    + rewrite EG. apply more_than_unique. auto.
    + exists b, bins, g'. auto.
Qed.

(** C79 applies to a table with a numeric column of five different values, n_discretize_bins = 2: two bins for "v", none for "u" *)
Definition pandas_clf : clf := fst (fit w_pandas irep_bins2 (DRows people) (Some people_y) None None (Some [s_ "u"; s_ "v"]) MNone true []).
Example C79_nonvacuous : exists bt, c_bt pandas_clf = Some bt /\ bins_for bt (s_ "v") [$"<1.75"; $">1.75"] /\ forall l, ~ bins_for bt (s_ "u") l.
Proof.
  destruct (C79_bins_of_fit_partial w_pandas irep_bins2 (DRows people) (Some people_y) None None (Some [s_ "u"; s_ "v"]) MNone true [] (s_ "t") (y_vals people_y) [10; 11; 12; 13; 14; 15] pandas_clf people_fr
    eq_refl people_input people_fr_table) as (bt & EB & B1 & B2 & B3).
  - right. eexists. split; [reflexivity|discriminate].
  - vm_compute. reflexivity.
  - exists bt. split; auto. split.
    + destruct (B3 (s_ "v") 2%Z (map (fun r => nth 1 (rcells r) PNaN) (frows people_fr)) eq_refl) as (l & BI); [lia|exists (s_ "v"); split; [right; left; auto|reflexivity]|reflexivity| | | | |].
      * split; [reflexivity|]. intros i rw v R V. rewrite nth_error_map, R in V. cbn [option_map] in V. injection V as <-. exists 1, (s_ "v"). split; [reflexivity|]. split; [reflexivity|].
        do 6 (destruct i as [|i]; [injection R as <-; reflexivity|]). destruct i; discriminate R.
      * apply numeric_iff. reflexivity.
      * cbn. intuition discriminate.
      * apply more_than_unique. reflexivity.
      * assert (E : l = [$"<1.75"; $">1.75"]); [|subst l; exact BI]. apply (B2 (s_ "v")); auto. clear -EB. exists [(s_ "v", [$"<1.75"; $">1.75"])], (s_ "v").
        split; [|split; [left; auto|reflexivity] ]. vm_compute in EB. injection EB as <-. reflexivity.
    + intros l BI. destruct (B1 _ _ BI) as (_ & _ & n & cs & ivs & _ & _ & CV & NU & _). destruct CV as [L CV].
      destruct cs as [|c cs]; [discriminate L|]. specialize (CV 0 (mkrow 0 [s_ "a"; PInt (-1)]) c eq_refl eq_refl). 
      assert (c = s_ "a"). { destruct CV as (j & h & N & Q & V). destruct j as [|[|j] ]; [|injection N as <-; discriminate Q|destruct j; discriminate N]. cbn in V. congruence. }
      destruct (NU c (or_introl eq_refl)) as [(z & K)|[(m & k & K) | K] ]; subst c; discriminate K.
Qed.

(** Refuted in general: a numeric column with more than n different values, one of them missing, that is not discretised: nearly all values
    are equal, so [pd.qcut] makes one bin; the missing value is counted as a second bin and [pd.cut] is not tried. *)
Definition skew : list (list pyval) :=
  [[s_ "a"; PInt 0]; [s_ "b"; PInt 0]; [s_ "a"; PInt 0]; [s_ "b"; PInt 0]; [s_ "a"; PInt 0]; [s_ "b"; PInt 7]; [s_ "a"; PInt 9]; [s_ "b"; PNaN]].
Definition skew_y : ydata := YList [PInt 0; PInt 1; PInt 0; PInt 1; PInt 0; PInt 1; PInt 0; PInt 1].
Definition skew_clf : clf := fst (fit w_pandas irep_bins2 (DRows skew) (Some skew_y) (Some (s_ "t")) None (Some [s_ "u"; s_ "v"]) MNone true []).
Example C79_missing_value_refuted :
  (exists bt, fit w_pandas irep_bins2 (DRows skew) (Some skew_y) (Some (s_ "t")) None (Some [s_ "u"; s_ "v"]) MNone true [] = (skew_clf, Ok tt) /\
    c_bt skew_clf = Some bt /\ forall g l, ~ bins_for bt g l) /\
  let cs := map (fun r => nth 1 r PNaN) skew in numeric cs /\ more_than 2 cs /\ In PNaN cs.
Proof.
  split.
  - exists (mkbt (Some []) []). split; [vm_compute; reflexivity|]. split; [vm_compute; reflexivity|]. intros g l (bs & g' & E & I & _). injection E as <-. destruct I.
  - split; [apply numeric_iff; reflexivity|]. split; [apply more_than_unique; reflexivity|]. vm_compute. do 7 right. left. reflexivity.
Qed.
Print Assumptions C79_bins_of_fit_partial.
