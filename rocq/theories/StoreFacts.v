(** * StoreFacts.v : the calls on references do what the calls on values do, and write only into objects they have made *)
From Verif Require Export StoreSpec BaseFacts.
Open Scope nat_scope.

Definition over (s0 s : store) : Prop := exists ext, s = s0 ++ ext.
Lemma over_refl s : over s s.
Proof. exists []. now rewrite app_nil_r. Qed.
Lemma over_app s0 s x : over s0 s -> over s0 (s ++ x).
Proof. intros [e ->]. exists (e ++ x). now rewrite app_assoc. Qed.
Lemma over_trans s0 s1 s2 : over s0 s1 -> over s1 s2 -> over s0 s2.
Proof. intros [e ->] [e' ->]. exists (e ++ e'). now rewrite app_assoc. Qed.
Lemma over_len s0 s : over s0 s -> length s0 <= length s.
Proof. intros [e ->]. rewrite app_length. lia. Qed.
Lemma over_nth s0 s a o : over s0 s -> nth_error s0 a = Some o -> nth_error s a = Some o.
Proof. intros [e ->] H. rewrite nth_error_app1; auto. apply nth_error_Some. congruence. Qed.
Lemma over_untouched s0 s : over s0 s -> untouched s0 s.
Proof. intros H a o. apply over_nth; auto. Qed.
Lemma set_nth_app {A} i (x : A) : forall l1 l2, length l1 <= i -> set_nth i x (l1 ++ l2) = l1 ++ set_nth (i - length l1) x l2.
Proof.
  induction i as [|i IH]; intros [|a l1] l2 H; cbn [length] in H; try lia; auto. cbn [app set_nth length Nat.sub]. now rewrite IH by lia.
Qed.
Lemma over_set s0 s a o : over s0 s -> length s0 <= a -> over s0 (set_nth a o s).
Proof. intros [e ->] H. rewrite set_nth_app by auto. eexists; eauto. Qed.
Lemma set_nth_same {A} i (x : A) : forall l, i < length l -> nth_error (set_nth i x l) i = Some x.
Proof. induction i as [|i IH]; intros [|a l] H; cbn [length] in H; try lia; cbn [set_nth nth_error]; auto. apply IH. lia. Qed.
Lemma set_nth_other {A} i (x : A) : forall j l, j <> i -> nth_error (set_nth i x l) j = nth_error l j.
Proof. induction i as [|i IH]; intros [|j] [|a l] H; cbn [set_nth nth_error]; auto; try lia. Qed.

(** a computation over the store agrees with a value; [s0] is the store of the caller *)
Definition sim {A B} (s0 : store) (m : M A) (s : store) (v : res B) (Q : store -> A -> B -> Prop) : Prop :=
  over s0 (fst (m s)) /\ match snd (m s), v with Ok a, Ok b => Q (fst (m s)) a b | Err e, Err e' => e = e' | _, _ => False end.

Lemma sim_bind {A A' B B'} s0 (m : M A) (k : A -> M A') s (v : res B) (kv : B -> res B') Q Q' :
  sim s0 m s v Q -> (forall s' a b, over s0 s' -> Q s' a b -> sim s0 (k a) s' (kv b) Q') -> sim s0 (andthen m k) s (bind v kv) Q'.
Proof.
  intros [O H] K. unfold sim, andthen. destruct (m s) as [s' r] eqn:E. cbn [fst snd] in *. destruct r as [a|e], v as [b|e']; try easy.
  cbn [bind]. apply K; auto.
Qed.
Lemma bind_ret {B} (v : res B) : bind v Ok = v.
Proof. destruct v; reflexivity. Qed.
Lemma sim_weaken {A B} s0 (m : M A) s (v : res B) (Q Q' : store -> A -> B -> Prop) :
  sim s0 m s v Q -> (forall s' a b, over s0 s' -> Q s' a b -> Q' s' a b) -> sim s0 m s v Q'.
Proof. intros [O H] K. split; auto. destruct (snd (m s)), v; auto. Qed.
Lemma sim_ret {A B} s0 (a : A) (b : B) s (Q : store -> A -> B -> Prop) : over s0 s -> Q s a b -> sim s0 (ret a) s (Ok b) Q.
Proof. intros O H. split; auto. Qed.
Lemma sim_lift {A} s0 (r : res A) s (Q : store -> A -> A -> Prop) : over s0 s -> (forall a, r = Ok a -> Q s a a) -> sim s0 (lift r) s r Q.
Proof. intros O H. split; auto. unfold lift. cbn [snd]. destruct r; auto. Qed.
Lemma sim_bind_lift {A A' B'} s0 (r : res A) (k : A -> M A') s (kv : A -> res B') Q' :
  over s0 s -> (forall a, r = Ok a -> sim s0 (k a) s (kv a) Q') -> sim s0 (andthen (lift r) k) s (bind r kv) Q'.
Proof. intros O H. destruct r as [a|e]; cbn [bind]; [apply (H a); auto|]. split; auto. exact eq_refl. Qed.
(** a step that the calls on values do not have *)
Lemma sim_step {A A' B} s0 (m : M A) (k : A -> M A') s (v : res B) a s1 Q : m s = (s1, Ok a) -> sim s0 (k a) s1 v Q -> sim s0 (andthen m k) s v Q.
Proof. intros E H. unfold sim, andthen. rewrite E. exact H. Qed.

(** reading *)
Lemma read_frame_ok s a fr : nth_error s a = Some (FrameO fr) -> read_frame a s = (s, Ok fr).
Proof. intros H. unfold read_frame, andthen, read. rewrite H. reflexivity. Qed.
Lemma read_data_ok s a X : table_at s a X -> read_data a s = (s, Ok X).
Proof. intros H. unfold read_data, andthen, read. red in H. rewrite H. destruct X; reflexivity. Qed.
Lemma read_labels_ok s a y : labels_at s a y -> read_labels a s = (s, Ok y).
Proof.
  unfold labels_at, read_labels. destruct a as [a|], y as [y|]; try easy. intros H. unfold andthen, read. rewrite H. destruct y; reflexivity.
Qed.
Lemma table_over s0 s a X : over s0 s -> table_at s0 a X -> table_at s a X.
Proof. intros O. apply over_nth; auto. Qed.
Lemma labels_over s0 s a y : over s0 s -> labels_at s0 a y -> labels_at s a y.
Proof. intros O. unfold labels_at. destruct a, y; auto. apply over_nth; auto. Qed.

(** a DataFrame made by the package *)
Definition own (s0 s : store) (a : nat) (fr : frame) : Prop := length s0 <= a /\ nth_error s a = Some (FrameO fr).
Lemma own_app s0 s a fr x : own s0 s a fr -> own s0 (s ++ x) a fr.
Proof. intros [L H]. split; auto. rewrite nth_error_app1; auto. apply nth_error_Some. congruence. Qed.
Lemma new_ok s o : new o s = (s ++ [o], Ok (length s)).
Proof. reflexivity. Qed.
Lemma own_new s0 s fr : over s0 s -> own s0 (s ++ [FrameO fr]) (length s) fr.
Proof. intros O. split; [apply over_len; auto|]. rewrite nth_error_app2 by auto. now rewrite Nat.sub_diag. Qed.
Lemma pd_copy_ok s a fr : nth_error s a = Some (FrameO fr) -> pd_copy a s = (s ++ [FrameO fr], Ok (length s)).
Proof. intros H. unfold pd_copy, andthen. rewrite (read_frame_ok _ _ _ H). reflexivity. Qed.
Lemma own_write s0 s a fr fr' : over s0 s -> own s0 s a fr -> over s0 (set_nth a (FrameO fr') s) /\ own s0 (set_nth a (FrameO fr') s) a fr'.
Proof.
  intros O [L H]. split; [apply over_set; auto|]. split; auto. apply set_nth_same. apply nth_error_Some. congruence.
Qed.
Lemma pd_put_ok s a fr f vs : nth_error s a = Some (FrameO fr) -> pd_put a f vs s = (set_nth a (FrameO (put_col fr f vs)) s, Ok tt).
Proof. intros H. unfold pd_put, andthen. rewrite (read_frame_ok _ _ _ H). reflexivity. Qed.
Lemma pd_set_ok s a fr f vs : nth_error s a = Some (FrameO fr) -> pd_set a f vs s = (set_nth a (FrameO (set_col fr f vs)) s, Ok tt).
Proof. intros H. unfold pd_set, andthen. rewrite (read_frame_ok _ _ _ H). reflexivity. Qed.

Lemma pd_set_columns_sim s0 s a fr l : over s0 s -> own s0 s a fr ->
  sim s0 (pd_set_columns a l) s (rename (Some l) fr) (fun s' _ fr' => own s0 s' a fr').
Proof.
  intros O W. unfold pd_set_columns. eapply sim_step; [apply read_frame_ok, W|]. cbn beta. unfold rename. destruct (length l =? _).
  - destruct (own_write _ _ _ _ (mkframe l (frows fr)) O W) as [O' W']. split; auto.
  - split; auto. exact eq_refl.
Qed.
Lemma start_df_sim s0 s X d : over s0 s -> table_at s X d ->
  sim s0 (match d with DFrame _ => pd_copy X | DRows _ => pd_make d end) s (Ok (to_df d)) (own s0).
Proof.
  intros O T. destruct d as [fr|rows].
  - unfold sim. rewrite (pd_copy_ok _ _ _ T). cbn [fst snd to_df]. split; [apply over_app; auto|apply own_new; auto].
  - unfold sim, pd_make. rewrite new_ok. cbn [fst snd]. split; [apply over_app; auto|apply own_new; auto].
Qed.
Lemma training_df_sim s0 s X y f names d yv : over s0 s -> table_at s X d -> labels_at s y yv ->
  sim s0 (h_training_df X y f names) s (training_df d yv f names) (own s0).
Proof.
  intros O T L. unfold h_training_df, training_df. eapply sim_step; [apply read_data_ok, T|]. cbn beta.
  replace (bind (rename names (to_df d)) _) with
    (bind (Ok (to_df d)) (fun fr0 => bind (rename names fr0) (fun fr => match yv with None => Ok fr | Some y0 => attach_labels fr y0 f end))) by reflexivity.
  assert (St := start_df_sim s0 s X d O T).
  (* the caller's objects are still in the store when the labels are read *)
  set (Q := fun (s' : store) (a : nat) (fr : frame) => own s0 s' a fr /\ labels_at s' y yv).
  eapply (sim_bind _ _ _ _ _ _ (Q)).
  { unfold Q. destruct St as [O1 H1]. split; auto. destruct d as [fr|rows].
    - revert O1 H1. rewrite (pd_copy_ok _ _ _ T). cbn [fst snd]. intros O1 H1. split; auto. eapply labels_over; [|exact L]. exists [FrameO fr]. auto.
    - revert O1 H1. unfold pd_make. rewrite new_ok. cbn [fst snd]. intros O1 H1. split; auto. eapply labels_over; [|exact L]. eexists. reflexivity. }
  clear St. intros s1 a fr0 O1 [W1 L1].
  eapply (sim_bind _ _ _ _ _ _ (fun s' (_ : unit) fr => own s0 s' a fr /\ labels_at s' y yv)).
  { destruct names as [l|]; [|apply sim_ret; auto].
    pose proof (pd_set_columns_sim s0 s1 a fr0 l O1 W1) as [O2 H2]. split; auto.
    unfold pd_set_columns, andthen in *. rewrite (read_frame_ok _ _ _ (proj2 W1)) in *. cbn beta iota in *. destruct (rename (Some l) fr0) as [fr|e] eqn:E.
    - unfold rename in E. destruct (length l =? _) eqn:El; [|discriminate E]. unfold write in *. cbn [fst snd] in *. split; auto.
      unfold labels_at in *. destruct y as [ya|], yv as [yv|]; auto. rewrite set_nth_other; auto. intros ->. destruct W1 as [_ W1]. rewrite W1 in L1. destruct yv; discriminate L1.
    - unfold rename in E. destruct (length l =? _); [discriminate E|]. exact H2. }
  intros s2 [] fr O2 [W2 L2]. eapply sim_step; [apply read_labels_ok, L2|]. cbn beta.
  destruct yv as [[n ix vals|vals]|].
  - eapply sim_step; [apply read_frame_ok, W2|]. cbn beta. unfold attach_labels. destruct (length ix =? _).
    + eapply sim_step. { unfold pd_set_index, andthen. rewrite (read_frame_ok _ _ _ (proj2 W2)). apply new_ok. }
      cbn beta. eapply sim_step; [apply new_ok|]. cbn beta.
      assert (W3 : own s0 ((s2 ++ [FrameO (set_index fr ix)]) ++ [SeriesO n ix vals]) (length s2) (set_index fr ix)) by (apply own_app, own_new; auto).
      assert (O3 : over s0 ((s2 ++ [FrameO (set_index fr ix)]) ++ [SeriesO n ix vals])) by (do 2 apply over_app; auto).
      eapply sim_step; [apply pd_put_ok, W3|]. cbn beta. destruct (own_write _ _ _ _ (put_col (set_index fr ix) f vals) O3 W3). apply sim_ret; auto.
    + destruct (nodupb ix).
      * eapply sim_step; [apply pd_put_ok, W2|]. cbn beta. edestruct (own_write _ _ _ _ (put_col fr f (map (fun r => lookup_label ix vals (rlab r)) (frows fr))) O2 W2). apply sim_ret; auto.
      * split; auto. exact eq_refl.
  - eapply sim_step; [apply read_frame_ok, W2|]. cbn beta. unfold attach_labels. destruct (length vals =? _).
    + eapply sim_step; [apply pd_put_ok, W2|]. cbn beta. edestruct (own_write _ _ _ _ (put_col fr f vals) O2 W2). apply sim_ret; auto.
    + split; auto. exact eq_refl.
  - apply sim_ret; auto.
Qed.
Lemma prediction_df_sim s0 s X f names d : over s0 s -> table_at s X d ->
  sim s0 (h_prediction_df X f names) s (prediction_df d f names) (own s0).
Proof.
  intros O T. unfold h_prediction_df, prediction_df. eapply sim_step; [apply read_data_ok, T|]. cbn beta zeta.
  replace (bind (if has_col (to_df d) f then _ else _) _) with
    (bind (Ok (to_df d)) (fun fr => bind (if has_col fr f then drop_col fr f else Ok fr) (fun fr' => rename (option_map (filter (fun g => negb (py_eq g f))) names) fr'))) by reflexivity.
  eapply sim_bind; [apply start_df_sim; auto|]. cbn beta. intros s1 a fr O1 W1. eapply sim_step; [apply read_frame_ok, W1|]. cbn beta.
  eapply (sim_bind _ _ _ _ _ _ (fun s' (_ : unit) fr' => own s0 s' a fr')).
  - destruct (has_col fr f); [|apply sim_ret; auto]. unfold pd_drop. eapply sim_step; [apply read_frame_ok, W1|]. cbn beta.
    destruct (drop_col fr f) as [fr'|e].
    + destruct (own_write _ _ _ _ fr' O1 W1). split; auto.
    + split; auto. exact eq_refl.
  - intros s2 [] fr' O2 W2. destruct names as [l|].
    + rewrite <- (bind_ret (rename (option_map _ (Some l)) fr')). eapply sim_bind; [apply pd_set_columns_sim; eauto|]. cbn beta. intros s3 [] fr3 O3 W3. apply sim_ret; auto.
    + apply sim_ret; auto.
Qed.

(** discretising *)
Lemma transform_cols_sim s0 bt done bins : forall s a fr, over s0 s -> own s0 s a fr ->
  sim s0 (h_transform_cols bt done bins a) s (transform_cols bt done bins fr) (fun s' _ fr' => own s0 s' a fr').
Proof.
  induction bins as [|[f b] t IH]; intros s a fr O W; cbn [h_transform_cols transform_cols]; [apply sim_ret; auto|].
  eapply sim_step; [apply read_frame_ok, W|]. cbn beta. destruct (has_col fr f && _); [|apply IH; auto].
  apply sim_bind_lift; auto. intros vs _. eapply sim_step; [apply pd_set_ok, W|]. cbn beta. destruct (own_write _ _ _ _ (set_col fr f vs) O W). apply IH; auto.
Qed.
Lemma transform_sim s0 bt s a fr : over s0 s -> own s0 s a fr -> sim s0 (h_transform bt a) s (transform bt fr) (own s0).
Proof.
  intros O W. unfold h_transform, transform. destruct (bt_bins bt) as [bins|]; [|split; auto; exact eq_refl].
  eapply sim_step; [apply read_frame_ok, W|]. cbn beta. apply sim_bind_lift; auto. intros done _.
  eapply sim_step; [apply pd_copy_ok, W|]. cbn beta. rewrite <- (bind_ret (transform_cols bt done bins fr)).
  eapply sim_bind; [apply transform_cols_sim; [apply over_app; auto|apply own_new; auto]|]. cbn beta. intros s2 [] fr2 O2 W2. apply sim_ret; auto.
Qed.

Lemma preprocess_training_sim s0 cut nbins X y cf pc names d yv s : over s0 s -> table_at s X d -> labels_at s y yv ->
  sim s0 (h_preprocess_training cut nbins X y cf pc names) s (preprocess_training cut nbins d yv cf pc names)
    (fun s' t v => own s0 s' (fst (fst (fst t))) (fst (fst (fst v))) /\ snd (fst (fst t)) = snd (fst (fst v)) /\ snd (fst t) = snd (fst v) /\ snd t = snd v).
Proof.
  intros O T L. unfold h_preprocess_training, preprocess_training. eapply sim_step; [apply read_data_ok, T|]. eapply sim_step; [apply read_labels_ok, L|]. cbn beta.
  apply sim_bind_lift; auto. intros _ _. destruct (class_feat_name cf yv) as [f|].
  - eapply sim_bind; [apply training_df_sim; eauto|]. cbn beta. intros s1 a fr O1 W1. eapply sim_step; [apply read_frame_ok, W1|]. cbn beta.
    apply sim_bind_lift; auto. intros p _. eapply sim_step; [apply pd_copy_ok, W1|]. cbn beta. unfold fit_transform.
    destruct (fit_bins cut nbins fr [f]) as [bt|e]; cbn [bind]; [|split; [apply over_app; auto|exact eq_refl]].
    replace (bind (bind (transform bt fr) _) _) with (bind (transform bt fr) (fun df' => Ok (df', f, p, bt))) by (destruct (transform bt fr); reflexivity).
    eapply sim_step; [reflexivity|]. eapply sim_bind; [apply transform_sim; [apply over_app; auto|apply own_new; auto]|]. cbn beta. intros s2 a2 fr2 O2 W2. apply sim_ret; auto.
  - eapply sim_bind; [apply training_df_sim; eauto|]. cbn beta. intros s1 a fr O1 W1. eapply sim_step; [apply read_frame_ok, W1|]. cbn beta.
    apply sim_bind_lift; auto. intros p _. eapply sim_step; [apply pd_copy_ok, W1|]. cbn beta. unfold fit_transform.
    destruct (fit_bins cut nbins fr []) as [bt|e]; cbn [bind]; [|split; [apply over_app; auto|exact eq_refl]].
    replace (bind (bind (transform bt fr) _) _) with (bind (transform bt fr) (fun _ => @Err (frame * pyval * pyval * bin_transformer) ValueError)) by (destruct (transform bt fr); reflexivity).
    eapply sim_step; [reflexivity|]. eapply sim_bind; [apply transform_sim; [apply over_app; auto|apply own_new; auto]|]. cbn beta. intros s2 a2 fr2 O2 W2. split; auto. exact eq_refl.
Qed.
Lemma preprocess_prediction_sim s0 X cf names sel bt d s : over s0 s -> table_at s X d ->
  sim s0 (h_preprocess_prediction X cf names sel bt) s (preprocess_prediction d cf names sel bt) (own s0).
Proof.
  intros O T. unfold h_preprocess_prediction, preprocess_prediction. eapply sim_step; [apply read_data_ok, T|]. cbn beta.
  apply sim_bind_lift; auto. intros _ _. eapply sim_bind; [apply prediction_df_sim; eauto|]. cbn beta. intros s1 a fr O1 W1. eapply sim_step; [apply read_frame_ok, W1|]. cbn beta.
  apply sim_bind_lift; auto. intros _ _. eapply sim_step; [apply pd_copy_ok, W1|]. cbn beta.
  assert (O2 := over_app _ _ [FrameO fr] O1). assert (W2 := own_new _ _ fr O1).
  destruct (bt_bool bt); [apply transform_sim; auto|apply sim_ret; auto].
Qed.
Lemma preprocess_recalibrate_sim s0 X y cf names bt d yv s : over s0 s -> table_at s X d -> labels_at s y yv ->
  sim s0 (h_preprocess_recalibrate X y cf names bt) s (preprocess_recalibrate d yv cf names bt) (own s0).
Proof.
  intros O T L. unfold h_preprocess_recalibrate, preprocess_recalibrate. eapply sim_step; [apply read_data_ok, T|]. eapply sim_step; [apply read_labels_ok, L|]. cbn beta.
  apply sim_bind_lift; auto. intros _ _. eapply sim_bind; [apply training_df_sim; eauto|]. cbn beta. intros s1 a fr O1 W1. eapply sim_step; [apply pd_copy_ok, W1|]. cbn beta.
  assert (O2 := over_app _ _ [FrameO fr] O1). assert (W2 := own_new _ _ fr O1).
  destruct bt as [b|]; [|apply sim_ret; auto]. destruct (bt_bool b); [apply transform_sim; auto|apply sim_ret; auto].
Qed.

(** calls *)
Lemma sim_read {A B} s0 (m : M A) (v : res B) s (g : A -> nat) (h : B -> frame) (R : A -> B -> Prop) :
  sim s0 m s v (fun s' a b => own s0 s' (g a) (h b) /\ R a b) ->
  sim s0 (t <~ m ;; fr <~ read_frame (g t) ;; ret (t, fr)) s v (fun s' p b => own s0 s' (g (fst p)) (h b) /\ R (fst p) b /\ snd p = h b).
Proof.
  intros H. rewrite <- (bind_ret v). eapply sim_bind; [exact H|]. cbn beta. intros s' a b O [W Ra]. eapply sim_step; [apply read_frame_ok, W|]. apply sim_ret; auto.
Qed.
Lemma recalibrate_same cl X y names ms rm dz d yv s : table_at s X d -> labels_at s y yv ->
  over s (fst (h_recalibrate cl X y names ms rm dz s)) /\ snd (h_recalibrate cl X y names ms rm dz s) = clf_recalibrate cl d yv names ms rm dz.
Proof.
  intros T L. unfold h_recalibrate, clf_recalibrate. destruct (c_cf cl) as [f|]; [|split; [apply over_refl|reflexivity]].
  destruct (c_pc cl) as [p|]; [|split; [apply over_refl|reflexivity]].
  destruct (if dz then _ else _) as [bt|e]; [|split; [apply over_refl|reflexivity]].
  assert (H : sim s (df <~ h_preprocess_recalibrate X y f names bt ;; read_frame df) s (preprocess_recalibrate d yv f names bt) (fun _ a b => a = b)).
  { rewrite <- (bind_ret (preprocess_recalibrate _ _ _ _ _)). eapply sim_bind; [apply preprocess_recalibrate_sim; eauto; apply over_refl|]. cbn beta.
    intros s' a fr O W. unfold sim. rewrite (read_frame_ok _ _ _ (proj2 W)). cbn [fst snd]. auto. }
  destruct H as [O H]. destruct (andthen _ _ s) as [s1 r]. cbn [fst snd] in *. split; auto.
  destruct r as [df|e], (preprocess_recalibrate d yv f names bt) as [df'|e']; try easy; subst; auto.
Qed.
Lemma fit_pre_sim cut nbins X y cf pc names d yv s : table_at s X d -> labels_at s y yv ->
  let m := (t <~ h_preprocess_training cut nbins X y cf pc names ;; fr <~ read_frame (fst (fst (fst t))) ;; ret (t, fr)) s in
  over s (fst m) /\
  match snd m, preprocess_training cut nbins d yv cf pc names with
  | Ok (a, f, p, bt, df), Ok (df', f', p', bt') => f = f' /\ p = p' /\ bt = bt' /\ df = df' /\ own s (fst m) a df
  | Err e, Err e' => e = e'
  | _, _ => False
  end.
Proof.
  intros T L m. pose proof (preprocess_training_sim s cut nbins X y cf pc names d yv s (over_refl s) T L) as H.
  apply (sim_read s _ _ s (fun t => fst (fst (fst t))) (fun v => fst (fst (fst v)))
    (fun t v => snd (fst (fst t)) = snd (fst (fst v)) /\ snd (fst t) = snd (fst v) /\ snd t = snd v)) in H.
  fold m in H. destruct H as [O H]. fold m in O, H. split; auto.
  destruct (snd m) as [[[[[a f] p] bt] df]|e], (preprocess_training cut nbins d yv cf pc names) as [[[[df' f'] p'] bt']|e']; auto.
  cbn [fst snd] in H. destruct H as (W & (-> & -> & ->) & ->). auto 6.
Qed.
Lemma irep_fit_same w cl X y cf pc names init cnopt d yv s : table_at s X d -> labels_at s y yv ->
  over s (fst (h_irep_fit w cl X y cf pc names init cnopt s)) /\ snd (h_irep_fit w cl X y cf pc names init cnopt s) = irep_fit w cl d yv cf pc names init cnopt.
Proof.
  intros T L. unfold h_irep_fit, irep_fit. destruct (irep_start init) as [x0|e]; [|split; [apply over_refl|reflexivity]].
  pose proof (fit_pre_sim (w_cut w) (h_nbins (c_hyper cl)) X y cf pc names d yv s T L) as [O H]. destruct (andthen _ _ s) as [s1 r]. cbn [fst snd] in O, H.
  destruct r as [[[[[a f] p] bt] df]|e], (preprocess_training (w_cut w) (h_nbins (c_hyper cl)) d yv cf pc names) as [[[[df' f'] p'] bt']|e']; try easy; [|subst; auto].
  destruct H as (-> & -> & -> & -> & W). destruct (x <- frommodel init ;; _) as [x1|e]; [|auto]. destruct (cols_without df' f') as [feats|e]; [|auto].
  match goal with |- context [h_recalibrate ?c _ _ _ _ _ _ _] => pose proof (recalibrate_same c a None None (Some 1%Z) false false (DFrame df') None s1 (proj2 W) I) as [O2 H2] end.
  destruct (h_recalibrate _ a _ _ _ _ _ s1) as [s2 [cl5 o]]. cbn [fst snd] in O2, H2. split; [eapply over_trans; eauto|]. rewrite <- H2. cbn [snd]. destruct o; reflexivity.
Qed.
Lemma ripper_fit_same w cl X y cf pc names init cnopt d yv s : table_at s X d -> labels_at s y yv ->
  over s (fst (h_ripper_fit w cl X y cf pc names init cnopt s)) /\ snd (h_ripper_fit w cl X y cf pc names init cnopt s) = ripper_fit w cl d yv cf pc names init cnopt.
Proof.
  intros T L. unfold h_ripper_fit, ripper_fit.
  pose proof (fit_pre_sim (w_cut w) (h_nbins (c_hyper cl)) X y cf pc names d yv s T L) as [O H]. destruct (andthen _ _ s) as [s1 r]. cbn [fst snd] in O, H.
  destruct r as [[[[[a f] p] bt] df]|e], (preprocess_training (w_cut w) (h_nbins (c_hyper cl)) d yv cf pc names) as [[[[df' f'] p'] bt']|e']; try easy; [|subst; auto].
  destruct H as (-> & -> & -> & -> & W). destruct (match frommodel init with Ok x => _ | Err er => _ end) as [lf [x1|e]]; [|auto]. destruct (cols_without df' f') as [feats|e]; [|auto].
  match goal with |- context [h_recalibrate ?c _ _ _ _ _ _ _] => pose proof (recalibrate_same c a None None (Some 1%Z) false false (DFrame df') None s1 (proj2 W) I) as [O2 H2] end.
  destruct (h_recalibrate _ a _ _ _ _ _ s1) as [s2 [cl5 o]]. cbn [fst snd] in O2, H2. split; [eapply over_trans; eauto|]. rewrite <- H2. cbn [snd]. destruct o; reflexivity.
Qed.
Lemma fit_same_store w cl X y cf pc names init cnopt kw d yv s : table_at s X d -> labels_at s y yv ->
  over s (fst (h_fit w cl X y cf pc names init cnopt kw s)) /\ snd (h_fit w cl X y cf pc names init cnopt kw s) = fit w cl d yv cf pc names init cnopt kw.
Proof.
  intros T L. unfold h_fit, fit. destruct (c_alg cl).
  - destruct (irep_start init); [apply irep_fit_same; auto|split; [apply over_refl|reflexivity]].
  - apply ripper_fit_same; auto.
Qed.

Lemma prediction_frame_sim cl bt X names d s : table_at s X d -> sim s (h_prediction_frame cl bt X names) s (prediction_frame cl bt d names) (fun s' a fr => own s s' a fr).
Proof.
  intros T. assert (O := over_refl s). unfold h_prediction_frame, prediction_frame. do 4 (apply sim_bind_lift; auto; intros ? _). apply preprocess_prediction_sim; auto.
Qed.
Ltac frame_step T :=
  eapply sim_bind; [apply prediction_frame_sim; exact T|]; cbn beta; intros ?s1 ?a ?fr ?O1 ?W1; eapply sim_step; [apply read_frame_ok; apply W1|]; cbn beta.
Lemma predict_same cl X names d s : table_at s X d ->
  over s (fst (h_predict cl X names s)) /\ snd (h_predict cl X names s) = clf_predict_reasons cl d names.
Proof.
  intros T. unfold h_predict, clf_predict_reasons. destruct (c_rs cl) as [x|]; [|split; [apply over_refl|reflexivity]]. destruct (ensure_bt cl) as [cl' b].
  match goal with |- context [let '(s1, r) := ?m s in _] =>
    assert (H : sim s m s (bt <- b ;; df <- prediction_frame cl' bt d names ;; rs_predict_reasons (rs_rules x) df) (fun _ a b => a = b)) end.
  { apply sim_bind_lift; [apply over_refl|]. intros bt _. frame_step T. apply sim_lift; auto. }
  destruct H as [O H]. destruct (andthen _ _ s) as [s1 r]. cbn [fst snd] in *. split; auto. f_equal. destruct r, (bt <- b ;; _); try easy; subst; auto.
Qed.
Lemma proba_same cl X names d s : table_at s X d ->
  over s (fst (h_predict_proba cl X names s)) /\ snd (h_predict_proba cl X names s) = clf_predict_proba cl d names.
Proof.
  intros T. unfold h_predict_proba, clf_predict_proba. destruct (c_rs cl) as [x|]; [|split; [apply over_refl|reflexivity]].
  match goal with |- context [let '(s1, r) := ?m s in _] =>
    assert (H : sim s m s (bt <- attr (c_bt cl) ;; df <- prediction_frame cl bt d names ;; p <- attr (c_pc cl) ;; Ok (df, p)) (fun _ a b => a = b)) end.
  { apply sim_bind_lift; [apply over_refl|]. intros bt _. frame_step T. apply sim_bind_lift; auto. intros p _. apply sim_ret; auto. }
  destruct H as [O H]. destruct (andthen _ _ s) as [s1 r]. cbn [fst snd] in *. split; auto. destruct r as [[df p]|e], (bt <- attr (c_bt cl) ;; _) as [[df' p']|e']; try easy; [|subst; auto].
  injection H as -> ->. reflexivity.
Qed.
Lemma score_same metric cl X y d yv s : table_at s X d -> labels_at s (Some y) (Some yv) ->
  over s (fst (h_score metric cl X y s)) /\ snd (h_score metric cl X y s) = clf_score metric cl d yv.
Proof.
  intros T L. unfold h_score, clf_score, clf_predict. destruct (c_rs cl) as [x|]; [|split; [apply over_refl|reflexivity]]. destruct (ensure_bt cl) as [cl' b].
  match goal with |- context [let '(s1, r) := ?m s in _] =>
    assert (H : sim s m s (bt <- b ;; df <- prediction_frame cl' bt d None ;; preds <- rs_predict (rs_rules x) df ;; p <- attr (c_pc cl) ;; metric (map (fun v => py_eq v p) (y_vals yv)) preds) (fun _ a b => a = b)) end.
  { apply sim_bind_lift; [apply over_refl|]. intros bt _. frame_step T. do 2 (apply sim_bind_lift; auto; intros ? _).
    eapply sim_step; [apply read_labels_ok; eapply labels_over; [|exact L]; auto|]. cbn beta iota. apply sim_lift; auto. }
  destruct H as [O H]. destruct (andthen _ _ s) as [s1 r]. cbn [fst snd] in *. split; auto. f_equal.
  replace (preds <- (bt <- b ;; _) ;; _) with (bt <- b ;; df <- prediction_frame cl' bt d None ;; preds <- rs_predict (rs_rules x) df ;; p <- attr (c_pc cl) ;; metric (map (fun v => py_eq v p) (y_vals yv)) preds).
  - destruct r, (bt <- b ;; _); try easy; subst; auto.
  - destruct b as [bt|]; cbn [bind]; auto. destruct (prediction_frame cl' bt d None) as [df|]; cbn [bind]; auto.
Qed.

(** rule_stats *)
Lemma examples_sim s0 w cf df covered fr cov y n s : over s0 s -> own s0 s df fr -> own s0 s covered cov ->
  sim s0 (h_examples w cf df covered y n) s (examples_of w cf fr cov y n) (fun s' a ex => own s0 s' a ex /\ over s s').
Proof.
  intros O Wd Wc. unfold h_examples, examples_of.
  eapply (sim_bind _ _ _ _ _ _ (fun s' a c => own s0 s' a c /\ over s s')).
  - destruct y as [ys|]; [|apply sim_ret; auto; split; auto; apply over_refl]. eapply sim_step; [apply read_frame_ok, Wd|]. eapply sim_step; [apply read_frame_ok, Wc|].
    eapply sim_step; [apply pd_copy_ok, Wc|]. cbn beta. assert (O2 := over_app _ _ [FrameO cov] O). assert (W2 := own_new _ _ cov O). assert (O3 := over_app s s [FrameO cov] (over_refl s)).
    assert (W3 := own_new s s cov (over_refl s)).
    destruct (forallb _ _); [|split; auto; exact eq_refl].
    eapply sim_step; [apply pd_put_ok, W2|]. cbn beta.
    destruct (own_write s0 _ _ _ (put_col cov cf (map (fun r => lookup_label (labels (frows fr)) ys (rlab r)) (frows cov))) O2 W2).
    destruct (own_write s _ _ _ (put_col cov cf (map (fun r => lookup_label (labels (frows fr)) ys (rlab r)) (frows cov))) O3 W3). apply sim_ret; auto.
  - intros s1 a c O1 [W1 V1]. destruct (n =? -1)%Z; [apply sim_ret; auto|]. destruct (0 <? n)%Z; [|split; auto; exact eq_refl].
    eapply sim_step; [apply read_frame_ok, W1|]. cbn beta. unfold sim. rewrite new_ok. cbn [fst snd]. split; [apply over_app; auto|]. split; [apply own_new; auto|apply over_app; auto].
Qed.
Definition line_ok (s0 s : store) (l : stat_line * option nat) (v : stat_line) : Prop :=
  l_idx (fst l) = l_idx v /\ l_str (fst l) = l_str v /\ l_coverage (fst l) = l_coverage v /\ l_n (fst l) = l_n v /\ l_perf (fst l) = l_perf v /\
  match snd l, l_examples v with None, None => True | Some a, Some fr => own s0 s a fr | _, _ => False end.
Lemma line_over s0 s s' l v : over s s' -> line_ok s0 s l v -> line_ok s0 s' l v.
Proof.
  intros O (A & B & C & D & E & F). do 5 (split; auto). destruct (snd l), (l_examples v); auto. destruct F as [F G]. split; auto. eapply over_nth; eauto.
Qed.
Lemma stat_sim s0 w cf pc df fr y n i r s : over s0 s -> own s0 s df fr ->
  sim s0 (h_stat w cf pc df y n i r) s (stat_of w cf pc fr y n i r) (fun s' l v => line_ok s0 s' l v /\ over s s').
Proof.
  intros O W. unfold h_stat, stat_of. eapply sim_step; [apply read_frame_ok, W|]. cbn beta. apply sim_bind_lift; auto. intros cov _.
  eapply sim_step; [apply new_ok|]. cbn beta zeta. assert (O2 := over_app _ _ [FrameO cov] O). assert (V2 := over_app s s [FrameO cov] (over_refl s)).
  apply sim_bind_lift; auto. intros perf _.
  eapply (sim_bind _ _ _ _ _ _ (fun s' o ex => match o, ex with None, None => True | Some a, Some fr => own s0 s' a fr | _, _ => False end /\ over s s')).
  - destruct n as [k|]; [|apply sim_ret; auto]. eapply sim_bind; [apply examples_sim; auto; [apply own_app; eauto|apply own_new; auto]|]. cbn beta.
    intros s1 a ex O1 [W1 V1]. apply sim_ret; auto. split; auto. eapply over_trans; eauto.
  - cbn beta. intros s1 o ex O1 [H V]. apply sim_ret; auto. split; auto. do 5 (split; [reflexivity|]). exact H.
Qed.
Lemma stats_sim s0 w cf pc df fr y n rs : forall s, over s0 s -> own s0 s df fr ->
  sim s0 (h_stats w cf pc df y n rs) s (mapM (fun ir : nat * rule => stat_of w cf pc fr y n (fst ir) (snd ir)) rs) (fun s' l v => Forall2 (line_ok s0 s') l v /\ over s s').
Proof.
  induction rs as [|[i r] t IH]; intros s O W; cbn [h_stats mapM fst snd]; [apply sim_ret; auto; split; [constructor|apply over_refl]|].
  eapply sim_bind; [apply stat_sim; eauto|]. cbn beta. intros s1 l v O1 [L1 V1]. eapply sim_bind; [apply IH; auto|].
  { destruct W as [W W']. split; auto. eapply over_nth; eauto. }
  cbn beta. intros s2 ls vs O2 [L2 V2]. apply sim_ret; auto. split; [|eapply over_trans; eauto]. constructor; auto. eapply line_over; eauto.
Qed.
Lemma stats_same w cl X y n names d yv s : table_at s X d -> labels_at s y yv ->
  over s (fst (h_rule_stats w cl X y n names s)) /\ fst (snd (h_rule_stats w cl X y n names s)) = fst (clf_rule_stats w cl d yv n names) /\
  match snd (snd (h_rule_stats w cl X y n names s)), snd (clf_rule_stats w cl d yv n names) with
  | Ok l, Ok v => Forall2 (line_ok s (fst (h_rule_stats w cl X y n names s))) l v
  | Err e, Err e' => e = e'
  | _, _ => False
  end.
Proof.
  intros T L. unfold h_rule_stats, clf_rule_stats. destruct (c_rs cl) as [x|]; [|split; [apply over_refl|split; reflexivity]]. destruct (ensure_bt cl) as [cl' b].
  match goal with |- context [let '(s1, r) := ?m s in _] =>
    assert (H : sim s m s (bt <- b ;; df <- prediction_frame cl' bt d names ;; f <- attr (c_cf cl) ;; p <- attr (c_pc cl) ;;
            _ <- (match option_map y_vals yv with Some l => if length l =? length (frows df) then Ok tt else Err ValueError | None => Ok tt end) ;;
            mapM (fun ir : nat * rule => stat_of w f p df (option_map y_vals yv) n (fst ir) (snd ir)) (combine (seq 0 (length (rs_rules x))) (rs_rules x)))
       (fun s' l v => Forall2 (line_ok s s') l v)) end.
  { apply sim_bind_lift; [apply over_refl|]. intros bt _. frame_step T. do 2 (apply sim_bind_lift; auto; intros ? _).
    eapply sim_step; [apply read_labels_ok; eapply labels_over; [|exact L]; auto|]. cbn beta.
    replace (match option_map y_vals yv with Some l => _ | None => _ end) with
      (match yv with Some v => if length (y_vals v) =? length (frows fr) then Ok tt else Err ValueError | None => Ok tt end) by (destruct yv; reflexivity).
    apply sim_bind_lift; auto. intros _ _. eapply sim_weaken; [apply stats_sim; eauto|]. cbn beta. tauto. }
  destruct H as [O H]. destruct (andthen _ _ s) as [s1 r]. cbn [fst snd] in *. split; auto.
Qed.
