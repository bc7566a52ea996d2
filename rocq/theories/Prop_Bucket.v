(** * Prop_Bucket.v : C104 -- a discretised feature counts only through the bin its value falls in *)
From Verif Require Import CalFacts ProbaFacts ClfFacts Demo Prop_Helpers Prop_Prep Prop_Fit Prop_Classifier Prop_FitModel Prop_ClfProba Prop_Batch BinSpec Prop_Bins Cut CutFacts Prop_Cut.
From Coq Require Import Qround.
Open Scope nat_scope.

(** [f] is discretised, and its values [v] and [v'] are numbers that lie in the same of its bins (or both in none) *)
Definition same_bin (bt : bin_transformer) (f v v' : pyval) : Prop :=
  (exists b, bins_for bt f b) /\ exists x x', num_of v = Some x /\ num_of v' = Some x' /\
    forall ivs iv, bins_for bt f (map label ivs) -> in_order ivs -> In iv ivs -> (contains iv x <-> contains iv x').
(** two examples have, for every feature the rules mention, the same value or values in the same bin *)
Definition same_bins (bt : bin_transformer) (rs : list rule) (cols : list pyval) (rw : row) (cols' : list pyval) (rw' : row) : Prop :=
  forall f, mentions rs f -> exists v v', value_at cols rw f v /\ value_at cols' rw' f v' /\ (v = v' \/ same_bin bt f v v').

Lemma binned_move ivs v v' x x' o : num_of v = Some x -> num_of v' = Some x' -> (forall iv, In iv ivs -> (contains iv x <-> contains iv x')) ->
  binned ivs v o -> binned ivs v' o.
Proof.
  intros N N' H. unfold binned. rewrite N, N'. intros [(pre & b & post & -> & C & O & ->)|[O ->]].
  - left. exists pre, b, post. split; auto. split; [apply H; auto; apply in_elt|]. split; auto. intros c I C'. apply (O c I). apply H; auto. apply in_app_or in I. apply in_or_app. cbn [In]. tauto.
  - right. split; auto. intros b I C. apply (O b I). apply H; auto.
Qed.
Lemma shown_move bt f v v' w : same_bin bt f v v' -> shown bt f v w -> shown bt f v' w.
Proof.
  intros ((b & B) & x & x' & N & N' & H) [[(s & ->) _]|[[NB _]|(NS & ivs & F & O & K)]]; [discriminate|exfalso; eapply NB; eauto|].
  right. right. split; [intros s ->; discriminate|]. exists ivs. split; [exact F|]. split; [exact O|]. apply (binned_move ivs v v' x x' w N N'); auto. intros iv I. apply (H ivs iv F O I).
Qed.
Lemma same_bin_sym bt f v v' : same_bin bt f v v' -> same_bin bt f v' v.
Proof. intros (B & x & x' & N & N' & H). split; auto. exists x', x. split; auto. split; auto. intros ivs iv F O I. symmetry. eauto. Qed.
Lemma same_bins_half bt rs cols rw cols' rw' : distinct_cols cols -> same_bins bt rs cols rw cols' rw' -> forall r, In r rs -> holds bt cols rw r -> holds bt cols' rw' r.
Proof.
  intros D S r I H c Ic. destruct (H c Ic) as (w & (v & V & SH) & E). destruct (S (cfeat c)) as (u & u' & U & U' & SB); [exists r, c; auto|].
  assert (u = v) as -> by (apply value_at_cell in V; auto; apply value_at_cell in U; auto; congruence).
  exists w. split; auto. exists u'. split; auto. destruct SB as [<-|SB]; auto. eapply shown_move; eauto.
Qed.
Lemma same_bins_rules bt rs cols rw cols' rw' : distinct_cols cols -> distinct_cols cols' -> same_bins bt rs cols rw cols' rw' -> same_rules bt rs cols rw cols' rw'.
Proof.
  intros D D' S r I. split; [apply (same_bins_half _ _ _ _ _ _ D S r I)|]. apply (same_bins_half bt rs cols' rw' cols rw); auto.
  intros f M. destruct (S f M) as (v & v' & V & V' & E). exists v', v. split; auto. split; auto. destruct E as [->|E]; [left; reflexivity|right; apply same_bin_sym; exact E].
Qed.

(** ** C104: examples, of the same or of different tables given to a classifier, that have the same value or values in the same bin for every
    feature the rules mention get the same prediction, the same reasons, ... *)
Theorem C104_bins_decide : forall cl x cf pc sel bt X names fr X' names' fr',
  ready cl x cf pc sel -> c_bt cl = Some bt -> suits cl x cf sel bt X names fr -> suits cl x cf sel bt X' names' fr' ->
  exists preds reasons preds' reasons',
    clf_predict cl X names = (cl, Ok preds) /\ clf_predict_reasons cl X names = (cl, Ok (preds, reasons)) /\
    clf_predict cl X' names' = (cl, Ok preds') /\ clf_predict_reasons cl X' names' = (cl, Ok (preds', reasons')) /\
    length preds = length (frows fr) /\ length preds' = length (frows fr') /\
    forall i j rw rw', nth_error (frows fr) i = Some rw -> nth_error (frows fr') j = Some rw' ->
      same_bins bt (rs_rules x) (fcols fr) rw (fcols fr') rw' ->
      nth_error preds i = nth_error preds' j /\ nth_error reasons i = nth_error reasons' j.
Proof.
  intros cl x cf pc sel bt X names fr X' names' fr' R B S S'. destruct (same_rules_predict _ _ _ _ _ _ _ _ _ _ _ _ R B S S') as (p & q & p' & q' & E1 & E2 & E3 & E4 & L1 & L2 & H).
  exists p, q, p', q'. do 6 (split; [assumption|]). intros i j rw rw' Hi Hj A. apply (H i j rw rw' Hi Hj). apply same_bins_rules; [apply (su_good _ _ _ _ _ _ _ _ S)|apply (su_good _ _ _ _ _ _ _ _ S')|exact A].
Qed.
Print Assumptions C104_bins_decide.
(** ... and the same probabilities *)
Theorem C104_probabilities : forall cl x cf pc sel bt X names fr X' names' fr',
  ready cl x cf pc sel -> c_bt cl = Some bt -> suits cl x cf sel bt X names fr -> suits cl x cf sel bt X' names' fr' -> calibrated x ->
  exists probas reasons probas' reasons',
    snd (clf_predict_proba cl X names) = Ok (probas, reasons) /\ snd (clf_predict_proba cl X' names') = Ok (probas', reasons') /\
    forall i j rw rw' pr, nth_error (frows fr) i = Some rw -> nth_error (frows fr') j = Some rw' ->
      same_bins bt (rs_rules x) (fcols fr) rw (fcols fr') rw' ->
      nth_error probas i = Some pr -> exists pr', nth_error probas' j = Some pr' /\ eq_pair pr pr'.
Proof.
  intros cl x cf pc sel bt X names fr X' names' fr' R B S S' C. destruct (same_rules_proba _ _ _ _ _ _ _ _ _ _ _ _ R B S S' C) as (p & q & p' & q' & E1 & E2 & H).
  exists p, q, p', q'. do 2 (split; [assumption|]). intros i j rw rw' pr Hi Hj A. apply (H i j rw rw' pr Hi Hj). apply same_bins_rules; [apply (su_good _ _ _ _ _ _ _ _ S)|apply (su_good _ _ _ _ _ _ _ _ S')|exact A].
Qed.
Print Assumptions C104_probabilities.

(** ** C104, outliers: after fit, for every discretised feature all numbers from some number on share one bin, and so do all numbers up to some
    number: no value, however large or small, is treated in another way. *)
Lemma fval_bound (q : fval) : exists m : Z, forall z, q = FFin z -> (z < inject_Z m)%Q /\ (- inject_Z m < z)%Q.
Proof.
  destruct q as [z| | |]; try (exists 0%Z; discriminate). exists (Z.abs (Qceiling z) + Z.abs (Qfloor z) + 1)%Z. intros z' E. injection E as <-.
  assert (A := Qle_ceiling z). assert (B := Qfloor_le z). rewrite !inject_Z_plus.
  assert (K1 : (inject_Z (Qceiling z) <= inject_Z (Z.abs (Qceiling z)))%Q) by (rewrite <- Zle_Qle; lia).
  assert (K2 : (0 <= inject_Z (Z.abs (Qceiling z)))%Q) by (change 0%Q with (inject_Z 0); rewrite <- Zle_Qle; lia).
  assert (K3 : (0 <= inject_Z (Z.abs (Qfloor z)))%Q) by (change 0%Q with (inject_Z 0); rewrite <- Zle_Qle; lia).
  assert (K4 : (inject_Z (- Z.abs (Qfloor z)) <= inject_Z (Qfloor z))%Q) by (rewrite <- Zle_Qle; lia). rewrite inject_Z_opp in K4.
  change (inject_Z 1) with 1%Q. split; Lqa.lra.
Qed.
Lemma ends_bound (ivs : list (bound * bound)) : exists m : Z, forall iv b z, In iv ivs -> (b = fst iv \/ b = snd iv) -> bound_val b = FFin z -> (z < inject_Z m)%Q /\ (- inject_Z m < z)%Q.
Proof.
  induction ivs as [|iv ivs (m & IH)]; [exists 0%Z; intros ? ? ? []|].
  destruct (fval_bound (bound_val (fst iv))) as (m1 & H1). destruct (fval_bound (bound_val (snd iv))) as (m2 & H2). exists (Z.max m (Z.max m1 m2)).
  assert (M : forall k z, (k <= Z.max m (Z.max m1 m2))%Z -> (z < inject_Z k)%Q /\ (- inject_Z k < z)%Q -> (z < inject_Z (Z.max m (Z.max m1 m2)))%Q /\ (- inject_Z (Z.max m (Z.max m1 m2)) < z)%Q).
  { intros k z L [A B]. rewrite Zle_Qle in L. split; Lqa.lra. }
  intros iv' b z [<-|I] E V; [destruct E as [->| ->]; [apply (M m1)|apply (M m2)]; auto; lia|apply (M m); eauto; lia].
Qed.
Definition top (iv : bound * bound) : Prop := bound_val (snd iv) = FPInf /\ (bound_val (fst iv) = FNInf \/ exists q, bound_val (fst iv) = FFin q).
Definition bottom (iv : bound * bound) : Prop := bound_val (fst iv) = FNInf /\ (bound_val (snd iv) = FPInf \/ exists q, bound_val (snd iv) = FFin q).
Lemma beyond (ivs : list (bound * bound)) : exists m : Z, forall iv x, In iv ivs ->
  ((inject_Z m <= x)%Q -> (contains iv x <-> top iv)) /\ ((x <= - inject_Z m)%Q -> (contains iv x <-> bottom iv)).
Proof.
  destruct (ends_bound ivs) as (m & H). exists m. intros iv x I. unfold contains, top, bottom, below, at_most.
  assert (A := fun z => H iv (fst iv) z I (or_introl eq_refl)). assert (B := fun z => H iv (snd iv) z I (or_intror eq_refl)). clear H.
  split; intros L.
  - destruct (bound_val (fst iv)) as [a| | |], (bound_val (snd iv)) as [b| | |]; split; intros K;
      try (destruct K as [K1 K2]; try contradiction; try discriminate K1; try (destruct K2 as [K2|(? & K2)]; discriminate K2));
      try (destruct (A a eq_refl)); try (destruct (B b eq_refl)); try (exfalso; Lqa.lra); (split; [try reflexivity; try exact Logic.I; try Lqa.lra|try exact Logic.I; eauto; try Lqa.lra]).
  - destruct (bound_val (fst iv)) as [a| | |], (bound_val (snd iv)) as [b| | |]; split; intros K;
      try (destruct K as [K1 K2]; try contradiction; try discriminate K1; try (destruct K2 as [K2|(? & K2)]; discriminate K2));
      try (destruct (A a eq_refl)); try (destruct (B b eq_refl)); try (exfalso; Lqa.lra); (split; [try reflexivity; try exact Logic.I; try Lqa.lra|try exact Logic.I; eauto; try Lqa.lra]).
Qed.
Lemma contains_vals a b x : bound_val (fst a) = bound_val (fst b) -> bound_val (snd a) = bound_val (snd b) -> (contains a x <-> contains b x).
Proof. intros E1 E2. unfold contains, below, at_most. rewrite E1, E2. tauto. Qed.
Lemma labels_bounds ivs ivs' : Forall (fun b => fle (bound_val (fst b)) (bound_val (snd b)) = true) ivs -> Forall (fun b => fle (bound_val (fst b)) (bound_val (snd b)) = true) ivs' ->
  map label ivs = map label ivs' -> Forall2 (fun a b => bound_val (fst a) = bound_val (fst b) /\ bound_val (snd a) = bound_val (snd b)) ivs ivs'.
Proof.
  intros F. revert ivs'. induction F as [|a l A F IH]; intros [|b l'] F' E; try discriminate; constructor; inversion F'; subst; cbn [map] in E; [|apply IH; auto; congruence].
  injection E as E _. apply Prop_Disc.C48_labels_injective; auto.
Qed.
Lemma in_order_le ivs : in_order ivs -> Forall (fun b => fle (bound_val (fst b)) (bound_val (snd b)) = true) ivs.
Proof. intros [P _]. eapply Forall_impl; [|exact P]. intros b K. apply flt_le. exact K. Qed.
Lemma Forall2_in {A B} (R : A -> B -> Prop) l k a : Forall2 R l k -> In a l -> exists b, In b k /\ R a b.
Proof. induction 1; intros I; [contradiction|]. destruct I as [<-|I]; [exists y; cbn; auto|]. destruct (IHForall2 I) as (b & Ib & K). exists b. cbn. auto. Qed.

Theorem C104_outliers : forall w cl X y cf pc names init cnopt kw f vs ix cl' fr bt g labels,
  world_ok w -> w_cut w = pandas_cut -> training_input X y cf names f vs ix -> table_of X names fr ->
  (h_nbins (hyper_of cl kw) = None \/ exists n, h_nbins (hyper_of cl kw) = Some n /\ (0 <= n)%Z) ->
  fit w cl X y cf pc names init cnopt kw = (cl', Ok tt) -> c_bt cl' = Some bt -> bins_for bt g labels ->
  exists m : Z, forall v v' x x', num_of v = Some x -> num_of v' = Some x' ->
    (inject_Z m <= x /\ inject_Z m <= x')%Q \/ (x <= - inject_Z m /\ x' <= - inject_Z m)%Q ->
    same_bin bt g v v' /\ exists ivs iv, labels = map label ivs /\ In iv ivs /\ contains iv x.
Proof.
  intros w cl X y cf pc names init cnopt kw f vs ix cl' fr bt g labels W WC T TB NB FIT BT BF.
  destruct (C79_bins_of_fit_partial w cl X y cf pc names init cnopt kw f vs ix cl' fr WC T TB NB FIT) as (bt' & E & H1 & H2 & _). rewrite BT in E. injection E as <-.
  destruct (H1 g labels BF) as (_ & _ & n & cs & ivs1 & _ & _ & _ & _ & _ & L1 & _ & _ & _ & U).
  assert (SND : sound_bt bt).
  { destruct (fit_fitted _ _ _ _ _ _ _ _ _ _ _ FIT) as (df & f' & p & bt0 & xi & x1 & x2 & FT). assert (E := ft_bt _ _ _ _ _ _ _ _ _ _ _ _ _ _ _ _ _ _ FT). rewrite BT in E. injection E as <-.
    eapply (fit_pre_sound w cl X y cf pc names kw f vs ix); eauto; [|exact (ft_pre _ _ _ _ _ _ _ _ _ _ _ _ _ _ _ _ _ _ FT)].
    destruct NB as [->|(k & -> & K)]; cbn; auto. }
  destruct SND as [N|(bins & EB & _ & _ & OK)]; [destruct BF as (b0 & g0 & EB & _); congruence|].
  assert (O0 : exists ivs0, labels = map label ivs0 /\ in_order ivs0) by (destruct BF as (b0 & g0 & EB0 & I0 & _); rewrite EB in EB0; injection EB0 as <-; apply (OK g0 labels I0)).
  destruct O0 as (ivs0 & L0 & O0). destruct (beyond ivs0) as (m & M). exists m. intros v v' x x' V V' CASE. split.
  - split; [exists labels; exact BF|]. exists x, x'. split; auto. split; auto. intros ivs iv F O I.
    assert (LE : map label ivs = map label ivs0) by (rewrite <- L0; apply (H2 g labels (map label ivs)); auto).
    destruct (Forall2_in _ _ _ iv (labels_bounds _ _ (in_order_le _ O) (in_order_le _ O0) LE) I) as (iv0 & I0 & E1 & E2).
    rewrite (contains_vals iv iv0 x E1 E2), (contains_vals iv iv0 x' E1 E2). destruct (M iv0 x I0) as [M1 M2]. destruct (M iv0 x' I0) as [M1' M2'].
    destruct CASE as [[C C']|[C C']]; [rewrite (M1 C), (M1' C')|rewrite (M2 C), (M2' C')]; reflexivity.
  - exists ivs0. destruct U as (l & r & mid & U). rewrite U in L1.
    assert (LE : map label ((BNInf, r) :: mid ++ [(l, BPInf)]) = map label ivs0) by congruence. destruct O0 as [PR _].
    destruct CASE as [[C _]|[C _]].
    + destruct (rev ivs0) as [|iv0 rest] eqn:R; [assert (ivs0 = []) by (rewrite <- (rev_involutive ivs0), R; reflexivity); subst ivs0; discriminate LE|].
      assert (EI : ivs0 = rev rest ++ [iv0]) by (rewrite <- (rev_involutive ivs0), R; reflexivity). exists iv0. split; auto. assert (I0 : In iv0 ivs0) by (rewrite EI; apply in_elt). split; auto.
      destruct (M iv0 x I0) as [M1 _]. apply (M1 C). assert (LL : label (l, BPInf) = label iv0).
      { assert (Q := f_equal (fun z => hd [] (rev z)) LE). cbv beta in Q. rewrite app_comm_cons, <- !map_rev, rev_app_distr, R in Q. exact Q. }
      assert (P0 := proj1 (Forall_forall _ _) PR iv0 I0). destruct (Prop_Disc.C48_labels_injective l BPInf (fst iv0) (snd iv0)) as [Q1 Q2]; [destruct l; reflexivity|apply flt_le; exact P0|exact LL|].
      split; [symmetry; exact Q2|]. unfold proper in P0. rewrite <- Q2 in P0. destruct (bound_val (fst iv0)); cbn in P0; try discriminate; eauto.
    + destruct ivs0 as [|iv0 rest]; [discriminate LE|]. exists iv0. split; auto. split; [left; auto|]. destruct (M iv0 x (or_introl eq_refl)) as [_ M2]. apply (M2 C).
      assert (P0 := proj1 (Forall_forall _ _) PR iv0 (or_introl eq_refl)). cbn [map] in LE. injection LE as LL _.
      destruct (Prop_Disc.C48_labels_injective BNInf r (fst iv0) (snd iv0)) as [Q1 Q2]; [destruct r; reflexivity|apply flt_le; exact P0|exact LL|].
      split; [symmetry; exact Q1|]. unfold proper in P0. rewrite <- Q1 in P0. destruct (bound_val (snd iv0)); cbn in P0; try discriminate; eauto.
Qed.
Print Assumptions C104_outliers.
(** the hypotheses are met: of the newcomers the first (100) and the third (-0.5) fall in the bin above -1 of the only feature the rules mention,
    the second (-3.5) does not *)
Lemma people_bins ivs : bins_for people_bt (s_ "v") (map label ivs) -> in_order ivs ->
  Forall2 (fun a b => bound_val (fst a) = bound_val (fst b) /\ bound_val (snd a) = bound_val (snd b)) ivs [(BNInf, BNum (-10) 1); (BNum (-10) 1, BPInf)].
Proof.
  intros (bins & g & EB & I & _) O. injection EB as <-. destruct I as [I|[]]. injection I as _ E. apply labels_bounds; [apply in_order_le; exact O|repeat constructor|].
  rewrite <- E. reflexivity.
Qed.
Example C104_nonvacuous : exists rw0 rw2, nth_error (frows newcomers) 0 = Some rw0 /\ nth_error (frows newcomers) 2 = Some rw2 /\
  same_bins people_bt (rs_rules people_rules) (fcols newcomers) rw0 (fcols newcomers) rw2 /\
  same_bin people_bt (s_ "v") (PInt 100) (PDec (-5) 1) /\ ~ same_bin people_bt (s_ "v") (PInt 100) (PDec (-35) 1) /\
  snd (clf_predict people_clf (DFrame newcomers) None) = Ok [true; false; true].
Proof.
  assert (SB : same_bin people_bt (s_ "v") (PInt 100) (PDec (-5) 1)).
  { split; [eexists; exists [(s_ "v", [$"<-1.0"; $">-1.0"])], (s_ "v"); split; [reflexivity|]; split; [left; reflexivity|reflexivity]|].
    eexists _, _. split; [reflexivity|]. split; [reflexivity|]. intros ivs iv F O I. destruct (Forall2_in _ _ _ iv (people_bins ivs F O) I) as (b & Ib & E1 & E2).
    rewrite !(contains_vals iv b _ E1 E2). destruct Ib as [<-|[<-|[]]]; unfold contains, below, at_most; cbn; unfold Qle, Qlt; cbn; split; intros [A B]; split; auto; try lia. }
  eexists _, _. split; [reflexivity|]. split; [reflexivity|]. split; [|split; [exact SB|split]].
  - intros f (r & c & I & J & ->). destruct I as [<-|[]]. destruct J as [<-|[]]. exists (PInt 100), (PDec (-5) 1).
    split; [exists 0, (s_ "v"); repeat split|]. split; [exists 0, (s_ "v"); repeat split|]. right. exact SB.
  - intros (_ & x & x' & N & N' & H). injection N as <-. injection N' as <-.
    destruct people_sound as [X|(bins & EB & _ & _ & OK)]; [discriminate|]. destruct (OK (s_ "v") [$"<-1.0"; $">-1.0"]) as (ivs & L & O); [injection EB as <-; left; reflexivity|].
    assert (BF : bins_for people_bt (s_ "v") (map label ivs)) by (exists [(s_ "v", [$"<-1.0"; $">-1.0"])], (s_ "v"); rewrite <- L; split; [reflexivity|]; split; [left; reflexivity|reflexivity]).
    assert (F := people_bins ivs BF O). inversion F as [|a0 b0 l0 k0 _ F1]; subst. inversion F1 as [|a b l0' k0' [E1 E2] F2]; subst.
    assert (C := H _ a BF O (or_intror (or_introl eq_refl))). rewrite !(contains_vals a (BNum (-10) 1, BPInf) _ E1 E2) in C. unfold contains, below, at_most in C. cbn in C. unfold Qle, Qlt in C. cbn in C. lia.
  - vm_compute. reflexivity.
Qed.
