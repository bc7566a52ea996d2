(** * Prop_Disc.v : bins (C48-C51) *)
From Verif Require Import TransFacts Demo.

(** C48. Parsing the label of an interval gives the interval back, for every pair of printable ends (decimal, exponent notation,
    infinite; negative or not) with left <= right. *)
Theorem C48_label_round_trip : forall l r, fle (bound_val l) (bound_val r) = true ->
  str_to_interval (interval_to_str l r) = Ok (mkint (bound_val l) (bound_val r)).
Proof.
  intros l r H. unfold str_to_interval. rewrite label_floor_ceil.
  - cbn [bind]. rewrite H. reflexivity.
  - intros E. rewrite E in H. destruct r; cbn in H; try discriminate; auto.
  - intros E. rewrite E in H. destruct l; cbn in H; try discriminate; auto.
Qed.
Print Assumptions C48_label_round_trip.
(** so different bins have different labels *)
Theorem C48_labels_injective : forall l r l' r', fle (bound_val l) (bound_val r) = true -> fle (bound_val l') (bound_val r') = true ->
  interval_to_str l r = interval_to_str l' r' -> bound_val l = bound_val l' /\ bound_val r = bound_val r'.
Proof.
  intros l r l' r' H H' E. apply C48_label_round_trip in H, H'. rewrite E, H' in H. injection H as -> ->. auto.
Qed.
Print Assumptions C48_labels_injective.
Example C48_nonvacuous : interval_to_str (BNum (-1250) 2) (BNum (-5) 1) = $"-12.50 - -0.5" /\
  fle (bound_val (BNum (-1250) 2)) (bound_val (BNum (-5) 1)) = true /\
  interval_to_str (BExp (-15) 1 (-7)) BPInf = $">-1.5e-07" /\
  str_to_interval ($"-12.50 - -0.5") = Ok (mkint (FFin (-1250 # 100)) (FFin (-5 # 10))).
Proof. repeat split; vm_compute; reflexivity. Qed.

(** C49. Exactly what fit and transform do, for any edges (shown ones increasing) and any training column: the labels are those of
    disjoint bins in increasing order; transforming any list of values succeeds and sends every number to the label of the one bin
    containing it, or to nan if no bin contains it; a training number that lies between two consecutive edges and still lies between
    them after rounding is in some bin. *)
Theorem C49_transform_exact : forall edges vs labels, increasing (map e_shown edges) -> fit_labels (pandas_bins edges vs) = Ok labels ->
  exists bins, labels = map label bins /\
    (forall ws, exists out, transform_pandas labels ws = Ok out /\ Forall2 (binned bins) ws out) /\
    (forall v x a b, In v vs -> num_of v = Some x -> In (a, b) (edge_pairs edges) -> (e_at a < x /\ x <= e_at b)%Q ->
       contains (e_shown a, e_shown b) x -> exists c, In c bins /\ contains c x).
Proof.
  intros edges vs labels I H. destruct (fit_labels_exact edges vs I) as [[_ E]|(bins & E & _ & O & K & _)]; [congruence|].
  rewrite E in H. injection H as <-. exists bins. split; auto. split; [intros; apply transform_exact; auto|].
  intros v x a b Hv Hx Hb X C. apply (K _ x (kept_strict edges vs v x (a, b) Hv Hx Hb X) C).
Qed.
Print Assumptions C49_transform_exact.
(** If no bin was dropped (every bin between consecutive edges holds a training value) the bins cover the number line and every number
    is sent to the label of the one bin containing it. Missing: dropped empty bins, refuted below. *)
Theorem C49_every_number_one_bin_partial : forall edges vs, increasing (map e_shown edges) -> 2 <= length edges ->
  (forall a b, In (a, b) (edge_pairs edges) -> exists v x, In v vs /\ num_of v = Some x /\ (e_at a < x /\ x <= e_at b)%Q) ->
  exists bins, open_ended (map e_shown edges) bins /\ fit_labels (pandas_bins edges vs) = Ok (map label bins) /\
    forall v x, num_of v = Some x ->
      exists pre b post, bins = pre ++ b :: post /\ contains b x /\ (forall c, In c (pre ++ post) -> ~ contains c x) /\
        transform_pandas (map label bins) [v] = Ok [PStr (label b)].
Proof.
  intros edges0 vs I L A. rewrite all_kept by (intros [a b]; apply A). clear A. rewrite <- (map_length e_shown) in L. revert I L. generalize (map e_shown edges0).
  clear edges0. intros edges I L.
  destruct (ends_case edges) as [->|[(a & ->)|(lo & mid & hi & ->)]]; try (cbn in L; lia).
  exists (edge_pairs (BNInf :: mid ++ [BPInf])). destruct (edge_pairs_fst BNInf mid BPInf) as [E1 E2]. split; [|split].
  - exists mid. cbn [hd]. split; auto. f_equal. f_equal. f_equal. change (lo :: mid ++ [hi]) with ((lo :: mid) ++ [hi]). rewrite last_last. reflexivity.
  - unfold fit_labels. rewrite extend_contiguous. reflexivity.
  - intros v x Hx. destruct (transform_exact (edge_pairs (BNInf :: mid ++ [BPInf])) [v]) as (out & T & F); [eapply contiguous_order; eauto|].
    inversion F as [|? o ? ? B F']; subst. inversion F'; subst. unfold binned in B. rewrite Hx in B.
    destruct B as [(pre & b & post & B1 & B2 & B3 & ->)|[N _]].
    + exists pre, b, post. repeat split; auto; apply B2.
    + exfalso. destruct (edges_cover x BNInf mid BPInf) as (b & Hb & C); try exact Logic.I.
      * apply increasing_finite in I. inversion I; subst. apply Forall_app in H2. tauto.
      * eapply N; eauto.
Qed.
Print Assumptions C49_every_number_one_bin_partial.
Definition plain (m : Z) (k : nat) : edge := mkedge (qdec m k) (BNum m k).
Example C49_nonvacuous : increasing (map e_shown [plain 0 1; plain 25 1; plain 70 1]) /\
  fit_labels (pandas_bins [plain 0 1; plain 25 1; plain 70 1] [PInt 1; PInt 2; PInt 5; PInt 7]) = Ok [$"<2.5"; $">2.5"] /\
  transform_pandas [$"<2.5"; $">2.5"] [PInt (-40); PDec 25 1; PInt 99; PNaN] = Ok [s_ "<2.5"; s_ "<2.5"; s_ ">2.5"; PNaN].
Proof.
  split; [|split; vm_compute; reflexivity]. cbn [increasing map e_shown plain]. unfold finite, lower_than. cbn [bound_val].
  repeat split; eauto; eexists _, _; (split; [reflexivity|]); (split; [reflexivity|]); reflexivity.
Qed.

(** C50. Refuted at a threshold: 10 is put into the bin (10, +inf), which does not contain it. *)
Theorem C50_numpy_threshold_refuted :
  fit_labels (edge_pairs [BNum 0 1; BNum 100 1; BNum 200 1]) = Ok [$"<10.0"; $">10.0"] /\
  transform_numpy (map bin_val [BNum 0 1; BNum 100 1; BNum 200 1]) [$"<10.0"; $">10.0"] [PInt 10] = Ok [s_ ">10.0"] /\
  str_to_interval ($">10.0") = Ok (mkint (FFin (100 # 10)) FPInf) /\
  in_interval 10 (mkint (FFin (100 # 10)) FPInf) = false.
Proof. repeat split; vm_compute; reflexivity. Qed.
Print Assumptions C50_numpy_threshold_refuted.
(** Exactly: the numpy engine uses the opposite convention, lower end inclusive, upper end exclusive; *)
Theorem C50_numpy_convention : forall lo mid hi v x, increasing (lo :: mid ++ [hi]) -> num_of v = Some x ->
  exists bins b, fit_labels (edge_pairs (lo :: mid ++ [hi])) = Ok (map label bins) /\ open_ended (lo :: mid ++ [hi]) bins /\
    In b bins /\ contains_left b x /\
    transform_numpy (map bin_val (lo :: mid ++ [hi])) (map label bins) [v] = Ok [PStr (label b)].
Proof.
  intros lo mid hi v x I Hx. destruct (numpy_exact lo mid hi v x I Hx) as (b & H1 & H2 & H3).
  exists (edge_pairs (BNInf :: mid ++ [BPInf])), b. split; [unfold fit_labels; rewrite extend_contiguous; reflexivity|]. split; auto.
  destruct (edge_pairs_fst BNInf mid BPInf) as [E1 E2]. exists mid. cbn [hd]. split; auto.
  f_equal. f_equal. f_equal. change (lo :: mid ++ [hi]) with ((lo :: mid) ++ [hi]). rewrite last_last. reflexivity.
Qed.
Print Assumptions C50_numpy_convention.
(** so away from the inner thresholds the bin contains the value. Missing: values equal to an inner threshold, refuted above. *)
Theorem C50_numpy_bin_partial : forall lo mid hi v x, increasing (lo :: mid ++ [hi]) -> num_of v = Some x ->
  (forall m, In m mid -> ~ (bin_val m == x)%Q) ->
  exists bins b, fit_labels (edge_pairs (lo :: mid ++ [hi])) = Ok (map label bins) /\
    In b bins /\ contains b x /\
    transform_numpy (map bin_val (lo :: mid ++ [hi])) (map label bins) [v] = Ok [PStr (label b)].
Proof.
  intros lo mid hi v x I Hx N. destruct (C50_numpy_convention lo mid hi v x I Hx) as (bins & b & H1 & (mid' & M1 & M2 & M3) & H3 & H4 & H5).
  exists bins, b. split; auto. split; auto. split; auto.
  cbn [hd] in M1. injection M1 as M1. change (lo :: mid ++ [hi]) with ((lo :: mid) ++ [hi]) in M1. rewrite last_last in M1.
  apply app_inj_tail in M1. destruct M1 as [<- _].
  destruct H4 as [C1 C2]. split.
  - unfold below. destruct (bound_val (fst b)) as [q| | |] eqn:E; auto.
    assert (F : In (fst b) (BNInf :: mid)) by (rewrite <- M2; apply in_map; auto). destruct F as [F|F]; [rewrite <- F in E; discriminate|].
    specialize (N _ F). unfold bin_val in N. rewrite E in N. apply Qle_lteq in C1. destruct C1; auto. contradiction.
  - unfold at_most. destruct (bound_val (snd b)); auto. apply Qlt_le_weak; auto.
Qed.
Print Assumptions C50_numpy_bin_partial.

(** C51. transform on a frame it already transformed returns it unchanged, if no transformed cell is nan. *)
Theorem C51_idempotent_partial : forall bt bins fr fr', bt_bins bt = Some bins -> distinct_keys bins -> wf_frame fr ->
  transform bt fr = Ok fr' ->
  (forall f b, In (f, b) bins -> has_col fr' f = true -> ~ In PNaN (column fr' f)) -> transform bt fr' = Ok fr'.
Proof. exact transform_twice. Qed.
Print Assumptions C51_idempotent_partial.
Definition bt0 : bin_transformer := mkbt (Some [(s_ "age", [$"<30.0"; $"30.0 - 50.0"; $">50.0"])]) [].
Definition ages (l : list pyval) : frame := mkframe [s_ "name"; s_ "age"] (map (fun p => mkrow (fst p) [s_ "x"; snd p]) (combine (seq 0 (length l)) l)).
Example C51_nonvacuous : transform bt0 (ages [PInt 30; PDec 305 1; PInt 77]) = Ok (ages [s_ "<30.0"; s_ "30.0 - 50.0"; s_ ">50.0"]).
Proof. vm_compute. reflexivity. Qed.
(** Missing: a missing value stays nan and makes the second transform raise. *)
Theorem C51_idempotent_refuted : exists fr', transform bt0 (ages [PInt 30; PNaN]) = Ok fr' /\ transform bt0 fr' = Err ValueError.
Proof. eexists. split; [vm_compute; reflexivity|]. vm_compute. reflexivity. Qed.
Print Assumptions C51_idempotent_refuted.
(** Foreign bins are rejected. *)
Theorem C51_foreign_bin : forall bt bins fr f b v, bt_bins bt = Some bins -> In (f, b) bins -> has_col fr f = true ->
  is_text_col (column fr f) = true -> In v (column fr f) -> (forall s, v = PStr s -> ~ In s b) -> transform bt fr = Err ValueError.
Proof. exact transform_foreign. Qed.
Print Assumptions C51_foreign_bin.
Example C51_foreign_nonvacuous : transform bt0 (ages [s_ "<30.0"; s_ "20 - 40"]) = Err ValueError.
Proof. vm_compute. reflexivity. Qed.
(** What transform changes: only the columns of binned features that are not text. *)
Theorem C51_only_binned_columns : forall bt bins fr fr', bt_bins bt = Some bins -> distinct_keys bins -> wf_frame fr ->
  transform bt fr = Ok fr' ->
  fcols fr' = fcols fr /\ labels (frows fr') = labels (frows fr) /\
  (forall g, (forall f b, In (f, b) bins -> py_eq f g = false) -> column fr' g = column fr g) /\
  (forall f b, In (f, b) bins -> has_col fr f = true -> is_text_col (column fr f) = true -> column fr' f = column fr f).
Proof.
  intros bt bins fr fr' B D W H. destruct (transform_spec bt bins fr fr' B D W H) as (T1 & T2 & T3 & T4 & T5 & T6).
  repeat split; auto. intros f b I C T. apply (T5 f b I C T).
Qed.
Print Assumptions C51_only_binned_columns.
