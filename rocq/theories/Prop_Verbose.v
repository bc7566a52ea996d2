(** * Prop_Verbose.v : verbosity and the fitted model (C59) *)
From Verif Require Import VerboseFacts ClfFacts Demo Prop_Fit Prop_Prep Prop_Helpers.
Open Scope nat_scope.

(** the classifier with its verbosity parameter set *)
Definition verbose (cl : clf) (v : nat) : clf := set_params cl [(P_verbosity, VNat v)].
(** two calls end the same way: the same result or exception, and the same attributes apart from verbosity itself *)
Definition same_end (a b : clf * res unit) : Prop := snd a = snd b /\ verbose (fst a) 0 = verbose (fst b) 0.

Lemma verbose_at cl v : verbose cl v = clf_at cl v. Proof. reflexivity. Qed.
Lemma clf_at_twice cl v u : clf_at (clf_at cl v) u = clf_at cl u. Proof. reflexivity. Qed.
Lemma ends_alike (T O T' O' : Prop) v u a b q : loud_fit T O v a q -> loud_fit T' O' u b q -> ~ T -> ~ O -> ~ T' -> ~ O' -> same_end a b.
Proof.
  intros [(A1 & A2)|[(? & ?)|(? & ?)]] [(B1 & B2)|[(? & ?)|(? & ?)]] HT HO HT' HO'; try tauto. split; [congruence|].
  rewrite A2, B2, !verbose_at, !clf_at_twice. reflexivity.
Qed.

(** C59. Any fit, at any two verbosities below 5: the same result and the same model, or the same exception. *)
Theorem C59_below_five_partial : forall w cl v u X y cf pc names init cnopt kw, ~ In P_verbosity (map fst kw) -> v < 5 -> u < 5 ->
  same_end (fit_v w (verbose cl v) X y cf pc names init cnopt kw) (fit_v w (verbose cl u) X y cf pc names init cnopt kw).
Proof.
  intros w cl v u X y cf pc names init cnopt kw N LV LU. rewrite !verbose_at.
  eapply ends_alike; [apply (fit_loud w cl v X y cf pc names init cnopt kw N)|apply (fit_loud w cl u X y cf pc names init cnopt kw N)|..]; lia.
Qed.
Print Assumptions C59_below_five_partial.

(** C59. At any verbosity, a fit never gives a different model: it ends as with verbosity 0, or raises TypeError or OverflowError. *)
Theorem C59_never_another_model : forall w cl v X y cf pc names init cnopt kw, ~ In P_verbosity (map fst kw) ->
  let loud := fit_v w (verbose cl v) X y cf pc names init cnopt kw in
  same_end loud (fit_v w (verbose cl 0) X y cf pc names init cnopt kw) \/ snd loud = Err TypeError \/ snd loud = Err OverflowError.
Proof.
  intros w cl v X y cf pc names init cnopt kw N. cbn zeta. rewrite !verbose_at.
  destruct (fit_loud w cl v X y cf pc names init cnopt kw N) as [H|[(_ & H)|(_ & H)]]; auto. left.
  eapply (ends_alike False False); [left; exact H|apply (fit_loud w cl 0 X y cf pc names init cnopt kw N)|..]; try tauto; lia.
Qed.
Print Assumptions C59_never_another_model.

(** C59. The fits of the other files are the silent ones: with verbosity below 5 the printing program computes exactly [fit]. *)
Theorem C59_silent_is_fit : forall w cl v X y cf pc names init cnopt kw, ~ In P_verbosity (map fst kw) -> v < 5 ->
  same_end (fit_v w (verbose cl v) X y cf pc names init cnopt kw) (fit w (verbose cl v) X y cf pc names init cnopt kw).
Proof.
  intros w cl v X y cf pc names init cnopt kw N LV. rewrite !verbose_at.
  destruct (fit_loud w (clf_at cl v) v X y cf pc names init cnopt kw N) as [(A & B)|[(? & ?)|(? & ?)]]; try lia.
  rewrite clf_at_twice in A, B. split; auto. rewrite B. rewrite !verbose_at, clf_at_twice. reflexivity.
Qed.
Print Assumptions C59_silent_is_fit.

(** ** IREP *)
(** a feature: a column of the user's table other than the class column *)
Definition has_feature (X : data) (names : option (list pyval)) (f : pyval) : Prop :=
  exists fr g, table_of X names fr /\ column_present fr g /\ py_eq f g = false.
Lemma table_unique X names a b : table_of X names a -> table_of X names b -> a = b.
Proof. intros A B. apply table_rename in A, B. congruence. Qed.
Lemma has_conditions df f g : good_frame df -> has_col df f = true -> frows df <> [] -> column_present df g -> py_eq f g = false -> ~ no_conditions df f.
Proof.
  intros G HC NE CP NG N. destruct (cols_without_ok df f HC) as (feats & CW). unfold cols_without in CW. binv CW. rename v into x. rename E into D.
  destruct (drop_col_good df f x G D) as (Gx & LX & _ & _). destruct (drop_col_values df f x G D) as (PX & _).
  assert (CX : column_present x g) by (apply PX; auto). destruct CX as (c & I & E).
  assert (NX : frows x <> []).
  { intros Z. rewrite Z in LX. unfold labels in LX. destruct (frows df); [congruence|discriminate]. }
  destruct (frows x) as [|rw rows] eqn:ER; [congruence|]. apply In_nth_error in I. destruct I as (j & J).
  assert (Ecc : py_eq c c = true) by (eapply py_eq_refl_l; eauto).
  assert (V : exists v, value_at (fcols x) rw c v).
  { destruct (nth_error (rcells rw) j) as [v|] eqn:Ev.
    - exists v. exists j, c. auto.
    - exfalso. apply nth_error_None in Ev. assert (L : j < length (fcols x)) by (apply nth_error_Some; congruence).
      rewrite <- (proj1 Gx rw) in L; [lia|]. rewrite ER; left; auto. }
  destruct V as (v & V). apply value_at_cell in V; [|apply Gx].
  assert (I : In v (column x c)) by (apply column_In; exists rw; rewrite ER; split; [left|]; auto).
  destruct (unique_complete _ _ I) as (u & U & _).
  assert (Z : In (mkcond c u) (cn_possible_conds x)) by (apply possible_In; exists c, u; split; [eapply nth_error_In; eauto|auto]).
  assert (M : cn_make df f = Ok (mkcn (cn_possible_conds x) (map (fun c => (c, labels (filter (cell_eq (fcols x) (cfeat c) (cval c)) (frows x)))) (cn_possible_conds x)) (labels (frows df)))).
  { unfold cn_make. rewrite D. reflexivity. }
  specialize (N _ M). cbn [cn_conds] in N. rewrite N in Z. destruct Z.
Qed.
Lemma feature_conditions w cl X y cf pc names kw f vs ix df f' p bt : world_ok w -> nbins_ok (h_nbins (hyper_of cl kw)) ->
  training_input X y cf names f vs ix -> has_feature X names f ->
  fit_pre w cl X y cf pc names kw = Ok (df, f', p, bt) -> ~ no_conditions df f'.
Proof.
  intros [_ C] N T (fr & g & TF & CP & NG) E. destruct (input_pre _ _ _ _ _ _ _ T) as (df0 & G & HC & EC & EL & NE & TD & PR).
  rewrite PR in E. binv E. rename v into p0. destruct (fit_transform_ok (w_cut w) (fit_nbins cl kw) df0 f C N G HC) as (bt' & df' & EF & G' & F & L & _).
  rewrite EF in E. cbn [bind] in E. injection E as <- <- <- <-.
  apply (has_conditions df' f g); auto.
  - unfold has_col. rewrite F. exact HC.
  - intros Z. rewrite Z in L. unfold labels in L. destruct (frows df0); [congruence|discriminate].
  - assert (K : column_present df0 g).
    { destruct T as [fr' -> -> T' G0 NE' CP' CV ->|y' fr' -> NC FF T' G0 NE' S -> LV ->]; rewrite (table_unique _ _ _ _ TF T') in CP.
      - unfold training_df in TD. rewrite (table_rename _ _ _ T') in TD. cbn [bind] in TD. injection TD as <-. auto.
      - destruct (training_df_spec X names fr' y' f T' G0 S LV FF) as (df1 & TD1 & _ & LB). rewrite TD in TD1. injection TD1 as <-.
        destruct LB as (_ & _ & P & _). apply P. auto. }
    destruct K as (c & I & EQ). exists c. rewrite F. auto.
Qed.

(** C59, IREP. On a well-formed training set with at least one feature, verbosity never matters, at any level; with cn_optimize=False not
    even that is needed. *)
Theorem C59_irep_verbosity_irrelevant : forall w cl v u X y cf pc names init cnopt kw f vs ix,
  c_alg cl = IREP_ -> ~ In P_verbosity (map fst kw) -> world_ok w ->
  (h_nbins (hyper_of cl kw) = None \/ exists n, h_nbins (hyper_of cl kw) = Some n /\ (0 <= n)%Z) ->
  training_input X y cf names f vs ix -> has_feature X names f ->
  same_end (fit_v w (verbose cl v) X y cf pc names init cnopt kw) (fit_v w (verbose cl u) X y cf pc names init cnopt kw).
Proof.
  intros w cl v u X y cf pc names init cnopt kw f vs ix A N W NB T F. rewrite !verbose_at.
  assert (NB' : nbins_ok (h_nbins (hyper_of cl kw))) by (destruct NB as [->|(n & -> & ?)]; cbn; auto).
  eapply ends_alike; [apply (fit_loud w cl v X y cf pc names init cnopt kw N)|apply (fit_loud w cl u X y cf pc names init cnopt kw N)|..];
    try (intros (_ & Z & _); rewrite A in Z; discriminate);
    intros (_ & _ & df & f' & p & bt & E & Z); eapply feature_conditions; eauto.
Qed.
Print Assumptions C59_irep_verbosity_irrelevant.
Theorem C59_irep_dataframe_engine : forall w cl v u X y cf pc names init kw, c_alg cl = IREP_ -> ~ In P_verbosity (map fst kw) ->
  same_end (fit_v w (verbose cl v) X y cf pc names init false kw) (fit_v w (verbose cl u) X y cf pc names init false kw).
Proof.
  intros w cl v u X y cf pc names init kw A N. rewrite !verbose_at.
  eapply ends_alike; [apply (fit_loud w cl v X y cf pc names init false kw N)|apply (fit_loud w cl u X y cf pc names init false kw N)|..];
    try (intros (_ & Z & _); rewrite A in Z; discriminate); intros (_ & Z & _); discriminate.
Qed.
Print Assumptions C59_irep_dataframe_engine.

(** C59, RIPPER. Likewise, as long as something is kept aside for pruning (prune_size > 0): then no pruning set is ever empty. *)
Theorem C59_ripper_verbosity_irrelevant : forall w cl v u X y cf pc names init cnopt kw f vs ix,
  c_alg cl = RIPPER_ -> ~ In P_verbosity (map fst kw) -> world_ok w ->
  (h_nbins (hyper_of cl kw) = None \/ exists n, h_nbins (hyper_of cl kw) = Some n /\ (0 <= n)%Z) ->
  (0 < h_prune (hyper_of cl kw) <= 1)%Q ->
  training_input X y cf names f vs ix -> NoDup ix -> has_feature X names f ->
  same_end (fit_v w (verbose cl v) X y cf pc names init cnopt kw) (fit_v w (verbose cl u) X y cf pc names init cnopt kw).
Proof.
  intros w cl v u X y cf pc names init cnopt kw f vs ix A N W NB (P0 & P1) T D F. rewrite !verbose_at.
  assert (NB' : nbins_ok (h_nbins (hyper_of cl kw))) by (destruct NB as [->|(n & -> & ?)]; cbn; auto).
  assert (S : splits_ok (w_env w) (hyper_of cl kw)).
  { split; [apply W|]. unfold grow_size. split; Lqa.lra. }
  eapply ends_alike; [apply (fit_loud w cl v X y cf pc names init cnopt kw N)|apply (fit_loud w cl u X y cf pc names init cnopt kw N)|..];
    try (intros (_ & _ & df & f' & p & bt & E & Z); eapply feature_conditions; eauto; fail);
    intros (_ & _ & df & f' & p & bt & E & Z); apply Z; (split; [exact S|]);
    destruct (input_pre _ _ _ _ _ _ _ T) as (df0 & G & HC & EC & EL & NE & TD & PR);
    change (fit_pre w cl X y cf pc names kw = Ok (df, f', p, bt)) in E; rewrite PR in E; binv E; destruct (fit_transform_ok (w_cut w) (fit_nbins cl kw) df0 f (proj2 W) NB' G HC) as (bt' & df' & EF & G' & FF & L & _);
    rewrite EF in E; cbn [bind] in E; injection E as <- <- <- <-; rewrite L, EL; exact D.
Qed.
Print Assumptions C59_ripper_verbosity_irrelevant.

Lemma people_feature : has_feature (DRows people) (Some [s_ "u"; s_ "v"]) (s_ "t").
Proof.
  exists people_fr, (s_ "u"). split; [|split; [exists (s_ "u"); split; [left|]; reflexivity|reflexivity]].
  apply (table_rows_named people 2 people_fr); auto; [discriminate|]. intros r I. repeat (destruct I as [<-|I]; [reflexivity|]). destruct I.
Qed.
Definition loud_people (a : alg) (kw : list (param * pvalue)) (v : nat) : option (list str) * res unit :=
  let r := fit_v w1 (verbose (construct a ((P_nbins, VOpt (Some 2%Z)) :: kw)) v) (DRows people) (Some people_y) None None (Some [s_ "u"; s_ "v"]) MNone true [] in
  (option_map (fun x => map rule_str (rs_rules x)) (c_rs (fst r)), snd r).
Example C59_nonvacuous : same_end
    (fit_v w1 (verbose irep_bins2 5) (DRows people) (Some people_y) None None (Some [s_ "u"; s_ "v"]) MNone true [])
    (fit_v w1 (verbose irep_bins2 0) (DRows people) (Some people_y) None None (Some [s_ "u"; s_ "v"]) MNone true []) /\
  loud_people IREP_ [] 5 = (Some [$"[v=>-1.0]"], Ok tt).
Proof.
  split; [|vm_compute; reflexivity].
  eapply C59_irep_verbosity_irrelevant; try reflexivity; [intros []|exact w1_ok|right; eexists; split; [reflexivity|discriminate]|exact people_input|exact people_feature].
Qed.
Example C59_ripper_nonvacuous : same_end
    (fit_v w1 (verbose ripper_bins2 5) (DRows people) (Some people_y) None None (Some [s_ "u"; s_ "v"]) MNone true [])
    (fit_v w1 (verbose ripper_bins2 0) (DRows people) (Some people_y) None None (Some [s_ "u"; s_ "v"]) MNone true []) /\
  loud_people RIPPER_ [] 5 = (Some [$"[v=>-1.0]"], Ok tt).
Proof.
  split; [|vm_compute; reflexivity].
  eapply C59_ripper_verbosity_irrelevant; try reflexivity;
    [intros []|exact w1_ok|right; eexists; split; [reflexivity|discriminate]|split; [reflexivity|discriminate]|exact people_input| |exact people_feature].
  repeat constructor; cbn; intuition discriminate.
Qed.
(** ... RIPPER without pruning fits the same data at verbosity 0 to 4, and raises TypeError at verbosity 5: the pruning value None is
    passed to the rounding function before the code looks whether it is None. (The rules of stage 1 are already in ruleset_ by then.) *)
Theorem C59_verbosity_refuted : training_input (DRows people) (Some people_y) None (Some [s_ "u"; s_ "v"]) (s_ "t") (y_vals people_y) [10; 11; 12; 13; 14; 15] /\
  loud_people RIPPER_ [(P_prune, VQ 0)] 0 = (Some [$"[v=>-1.0]"], Ok tt) /\
  loud_people RIPPER_ [(P_prune, VQ 0)] 4 = (Some [$"[v=>-1.0]"], Ok tt) /\
  loud_people RIPPER_ [(P_prune, VQ 0)] 5 = (Some [$"[v=>-1.0]"], Err TypeError).
Proof. split; [exact people_input|]. split; [|split]; vm_compute; reflexivity. Qed.
Print Assumptions C59_verbosity_refuted.
(** ... and IREP on a table with no feature at all (only the class column): a model at verbosity 4, OverflowError at verbosity 5 *)
Definition only_class : data := DRows [[PInt 0]; [PInt 0]; [PInt 0]; [PInt 1]; [PInt 1]; [PInt 1]].
Theorem C59_no_features_refuted :
  let run v := snd (fit_v w1 (verbose irep_bins2 v) only_class None (Some (s_ "t")) None (Some [s_ "t"]) MNone true []) in
  run 4 = Ok tt /\ run 5 = Err OverflowError.
Proof. split; vm_compute; reflexivity. Qed.
