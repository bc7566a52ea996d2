(** * Prop_Ranges.v : exactly when the first prediction of a model given as text or rules raises, and how (C109, completing C58) *)
From Verif Require Import SessionFacts Demo Prop_Helpers Prop_Prep Prop_Fit Prop_Classifier Prop_FitModel Prop_Text Prop_Session Prop_Warn.
Open Scope nat_scope.

(** ** The specification *)
(** s is a, then " - " for the first time, then b, in which " - " does not occur again *)
Definition occurs (p s : str) : Prop := exists a b, s = a ++ p ++ b.
Definition one_gap (s a b : str) : Prop :=
  s = a ++ $" - " ++ b /\ ~ occurs ($" - ") b /\ forall a' b', s = a' ++ $" - " ++ b' -> length a <= length a'.
(** dashes of a text other than its first character *)
Definition dashes (s : str) : nat := count_occ ascii_dec (tl s) (ch "-").
(** a value on which the analysis itself stumbles: not text, or several dashes that are not one " - " *)
Definition stumbles (v : pyval) (e : pyerr) : Prop :=
  ((forall s, v <> PStr s) /\ e = AttributeError) \/
  (exists s, v = PStr s /\ 2 <= dashes s /\ (forall a b, ~ one_gap s a b) /\ e = UnboundLocalError).
(** "floor - ceiling" with a floor that float() does not accept *)
Definition bad_floor (v : pyval) : Prop := exists s a b, v = PStr s /\ one_gap s a b /\ parse_float a = None.

(** ** Splitting *)
Lemma prefixb_iff p s : prefixb p s = true <-> exists b, s = p ++ b.
Proof.
  revert s. induction p as [|x p IH]; intros s; [split; [intros _; exists s; reflexivity|reflexivity]|]. destruct s as [|y s].
  - cbn [prefixb]. split; [discriminate|]. intros (b & E). discriminate E.
  - cbn [prefixb]. rewrite andb_true_iff, IH. split.
    + intros (E & b & ->). apply Ascii.eqb_eq in E. subst. exists b. reflexivity.
    + intros (b & E). cbn [app] in E. injection E as -> E. split; [apply Ascii.eqb_refl|]. exists b. exact E.
Qed.
Lemma skip_split sep : forall x b, split_sub_aux sep (length x) [] (x ++ b) = split_sub_aux sep 0 [] b.
Proof. induction x as [|c x IH]; intros b; [reflexivity|]. cbn [length app split_sub_aux]. apply IH. Qed.
Lemma split_none sep : sep <> [] -> forall s cur, ~ occurs sep s -> split_sub_aux sep 0 cur s = [rev cur ++ s].
Proof.
  intros NE. induction s as [|c s IH]; intros cur N; cbn [split_sub_aux]; [rewrite app_nil_r; reflexivity|].
  destruct (prefixb sep (c :: s)) eqn:P; [exfalso; apply prefixb_iff in P; destruct P as (b & E); apply N; exists [], b; exact E|].
  rewrite IH; [cbn [rev]; rewrite <- app_assoc; reflexivity|]. intros (a & b & E). apply N. exists (c :: a), b. rewrite E. reflexivity.
Qed.
Lemma split_first x sep : forall a cur b, (forall a' b', a ++ (x :: sep) ++ b = a' ++ (x :: sep) ++ b' -> length a <= length a') ->
  split_sub_aux (x :: sep) 0 cur (a ++ (x :: sep) ++ b) = (rev cur ++ a) :: split_sub_aux (x :: sep) 0 [] b.
Proof.
  induction a as [|c a IH]; intros cur b F.
  - cbn [app split_sub_aux]. destruct (prefixb (x :: sep) (x :: sep ++ b)) eqn:P.
    + cbn [length]. rewrite Nat.sub_succ, Nat.sub_0_r. rewrite skip_split, app_nil_r. reflexivity.
    + exfalso. assert (Q : prefixb (x :: sep) (x :: sep ++ b) = true) by (apply prefixb_iff; exists b; reflexivity). congruence.
  - cbn [app]. cbn [split_sub_aux]. destruct (prefixb (x :: sep) (c :: a ++ x :: sep ++ b)) eqn:P.
    + exfalso. apply prefixb_iff in P. destruct P as (b' & E). specialize (F [] b' E). cbn [length] in F. lia.
    + change (a ++ x :: sep ++ b) with (a ++ (x :: sep) ++ b). rewrite IH; [cbn [rev]; rewrite <- app_assoc; reflexivity|].
      intros a' b' E. specialize (F (c :: a') b'). cbn [length app] in F. assert (S (length a) <= S (length a')) by (apply F; f_equal; exact E). lia.
Qed.
Lemma first_occurrence p : forall s, occurs p s -> exists a b, s = a ++ p ++ b /\ forall a' b', s = a' ++ p ++ b' -> length a <= length a'.
Proof.
  intros s. destruct (prefixb p s) eqn:P.
  - intros _. apply prefixb_iff in P. destruct P as (b & E). exists [], b. split; [exact E|]. intros; cbn [length]; lia.
  - induction s as [|c s IH].
    + intros (a & b & E). exfalso. destruct a as [|y a]; [|discriminate E]. assert (prefixb p [] = true) by (apply prefixb_iff; exists b; exact E). congruence.
    + intros (a & b & E). destruct a as [|y a]; [exfalso; assert (prefixb p (c :: s) = true) by (apply prefixb_iff; exists b; exact E); congruence|].
      cbn [app] in E. injection E as _ E.
      assert (X : exists a b, s = a ++ p ++ b /\ forall a' b', s = a' ++ p ++ b' -> length a <= length a').
      { destruct (prefixb p s) eqn:P2; [|apply IH; [reflexivity|exists a, b; exact E]].
        apply prefixb_iff in P2. destruct P2 as (b2 & E2). exists [], b2. split; [exact E2|]. intros; cbn [length]; lia. }
      destruct X as (a1 & b1 & E1 & F). exists (c :: a1), b1. split; [rewrite E1; reflexivity|]. intros a' b' E'.
      destruct a' as [|y' a']; [exfalso; assert (prefixb p (c :: s) = true) by (apply prefixb_iff; exists b'; exact E'); congruence|].
      cbn [app] in E'. injection E' as _ E'. specialize (F _ _ E'). cbn [length]. lia.
Qed.
Lemma split_never_nil sep s : forall k cur, split_sub_aux sep k cur s <> [].
Proof. induction s as [|c s IH]; intros k cur; cbn [split_sub_aux]; [discriminate|]. destruct k; [|apply IH]. destruct (prefixb sep (c :: s)); [discriminate|apply IH]. Qed.
Lemma split_occurs_or x sep b : (~ occurs (x :: sep) b /\ split_sub_aux (x :: sep) 0 [] b = [b]) \/
  (occurs (x :: sep) b /\ exists u v t, split_sub_aux (x :: sep) 0 [] b = u :: v :: t).
Proof.
  assert (D : occurs (x :: sep) b \/ ~ occurs (x :: sep) b).
  { clear. induction b as [|c b IH].
    - right. intros (a & q & E). destruct a; discriminate E.
    - destruct (prefixb (x :: sep) (c :: b)) eqn:P; [left; apply prefixb_iff in P; destruct P as (q & E); exists [], q; exact E|].
      destruct IH as [(a & q & E)|N]; [left; exists (c :: a), q; rewrite E; reflexivity|]. right. intros (a & q & E). destruct a as [|y a].
      + assert (prefixb (x :: sep) (c :: b) = true) by (apply prefixb_iff; exists q; exact E). congruence.
      + cbn [app] in E. injection E as _ E. apply N. exists a, q. exact E. }
  destruct D as [O|N].
  - right. split; [exact O|]. destruct (first_occurrence _ _ O) as (a & q & E & F). subst b. rewrite split_first by exact F. cbn [rev app].
    destruct (split_sub_aux (x :: sep) 0 [] q) as [|v t] eqn:S; [destruct (split_never_nil _ _ _ _ S)|]. exists a, v, t. reflexivity.
  - left. split; [exact N|]. apply split_none; [discriminate|exact N].
Qed.
Lemma split_gap_gen x sep s a b : split_sub (x :: sep) s = [a; b] <->
  s = a ++ (x :: sep) ++ b /\ ~ occurs (x :: sep) b /\ forall a' b', s = a' ++ (x :: sep) ++ b' -> length a <= length a'.
Proof.
  unfold split_sub. split.
  - intros H. destruct (split_occurs_or x sep s) as [(_ & E)|(O & _)]; [rewrite E in H; discriminate H|].
    destruct (first_occurrence _ _ O) as (a1 & b1 & E & F). subst s. rewrite split_first in H by exact F. change (rev [] ++ a1) with a1 in H.
    destruct (split_occurs_or x sep b1) as [(N & E)|(_ & u & v & t & E)]; rewrite E in H; [|discriminate H].
    injection H as <- <-. split; [reflexivity|]. split; [exact N|exact F].
  - intros (-> & N & F). rewrite split_first by exact F. change (rev [] ++ a) with a. destruct (split_occurs_or x sep b) as [(_ & E)|(O & _)]; [rewrite E; reflexivity|destruct (N O)].
Qed.
Lemma split_gap s a b : split_sub ($" - ") s = [a; b] <-> one_gap s a b.
Proof. exact (split_gap_gen (ch " ") ($"- ") s a b). Qed.

(** ** Dashes *)
Lemma dash_count i s : i <> 0 -> length (dash_positions i s) = count_occ ascii_dec s (ch "-").
Proof.
  revert i. induction s as [|c s IH]; intros i N; [reflexivity|]. cbn [dash_positions count_occ]. rewrite app_length, IH by lia.
  destruct (Nat.eqb_spec i 0); [contradiction|]. rewrite andb_true_r. destruct (ascii_dec c (ch "-")) as [->|D].
  - rewrite Ascii.eqb_refl. reflexivity.
  - destruct (Ascii.eqb_spec c (ch "-")); [contradiction|]. reflexivity.
Qed.
Lemma dash_total s : length (dash_positions 0 s) = dashes s.
Proof.
  destruct s as [|c s]; [reflexivity|]. cbn [dash_positions]. change (negb (0 =? 0)) with false. rewrite andb_false_r. cbn [app]. unfold dashes. cbn [tl].
  apply dash_count. discriminate.
Qed.

(** ** The analysis of one value *)
Lemma gap_dec s : (exists a b, one_gap s a b) \/ (forall a b, ~ one_gap s a b).
Proof.
  destruct (split_sub ($" - ") s) as [|a [|b [|c l]]] eqn:E.
  - right. intros a b G. apply split_gap in G. congruence.
  - right. intros a' b G. apply split_gap in G. congruence.
  - left. exists a, b. apply split_gap. exact E.
  - right. intros a' b' G. apply split_gap in G. congruence.
Qed.
Lemma find_cases s :
  (exists a b, one_gap s a b /\ find_floor_ceil s = Ok (Some (a, b))) \/
  ((forall a b, ~ one_gap s a b) /\ 2 <= dashes s /\ find_floor_ceil s = Err UnboundLocalError) \/
  ((forall a b, ~ one_gap s a b) /\ dashes s <= 1 /\ exists o, find_floor_ceil s = Ok o /\ range_key o = Ok tt).
Proof.
  destruct (gap_dec s) as [(a & b & G)|N].
  - left. exists a, b. split; [exact G|]. apply split_gap in G. unfold find_floor_ceil. rewrite G. reflexivity.
  - right. assert (F : find_floor_ceil s = match dash_positions 0 s with
      | [] => Ok None
      | [i] => if is_valid_decimal (firstn i s) && is_valid_decimal (skipn (S i) s) then Ok (Some (firstn i s, skipn (S i) s)) else Ok None
      | _ => Err UnboundLocalError end).
    { unfold find_floor_ceil. destruct (split_sub ($" - ") s) as [|a [|b [|c l]]] eqn:E; try reflexivity. exfalso. apply (N a b). apply split_gap. exact E. }
    rewrite F. rewrite <- dash_total. destruct (dash_positions 0 s) as [|i [|j l]]; cbn [length].
    + right. split; [exact N|]. split; [lia|]. exists None. split; reflexivity.
    + right. split; [exact N|]. split; [lia|]. destruct (is_valid_decimal (firstn i s)) eqn:V; cbn [andb]; [|exists None; split; reflexivity].
      destruct (is_valid_decimal (skipn (S i) s)); [|exists None; split; reflexivity]. eexists. split; [reflexivity|]. cbn [range_key].
      unfold is_valid_decimal in V. destruct (parse_float (firstn i s)); [reflexivity|discriminate V].
    + left. split; [exact N|]. split; [lia|reflexivity].
Qed.
Lemma range_err c e : range_of c = Err e <-> stumbles (cval c) e.
Proof.
  unfold range_of. split.
  - intros H. destruct (cval c) as [s| | | |] eqn:V; try (left; split; [intros s0 Q; discriminate Q|congruence]).
    destruct (find_cases s) as [(a & b & _ & F)|[(N & D & F)|(_ & _ & o & F & _)]]; try congruence. right. exists s. repeat (split; auto). congruence.
  - intros [(N & ->)|(s & V & D & N & ->)].
    + destruct (cval c) as [s| | | |]; auto. destruct (N s eq_refl).
    + rewrite V. destruct (find_cases s) as [(a & b & G & _)|[(_ & _ & F)|(_ & D' & _)]]; [destruct (N _ _ G)|exact F|lia].
Qed.
Lemma range_good c o : range_of c = Ok o -> (range_key o = Ok tt /\ ~ bad_floor (cval c)) \/ (range_key o = Err ValueError /\ bad_floor (cval c)).
Proof.
  unfold range_of. intros H. destruct (cval c) as [s| | | |] eqn:V; try discriminate H.
  destruct (find_cases s) as [(a & b & G & F)|[(N & D & F)|(N & _ & o' & F & K)]]; rewrite F in H; [| discriminate H|].
  - injection H as <-. cbn [range_key]. destruct (parse_float a) eqn:P; [left|right]; (split; [reflexivity|]).
    + intros (s' & a' & b' & Q & G' & P'). injection Q as <-. apply split_gap in G, G'. congruence.
    + exists s, a, b. auto.
  - injection H as <-. left. split; [exact K|]. intros (s' & a' & b' & Q & G' & _). injection Q as <-. destruct (N _ _ G').
Qed.

(** ** All the conditions *)
Lemma ranges_cases k :
  (exists c e, In c k /\ stumbles (cval c) e /\ bind (mapM range_of k) (fun fcs => _ <- mapM range_key fcs ;; Ok tt) = Err e) \/
  ((forall c e, In c k -> ~ stumbles (cval c) e) /\ exists c, In c k /\ bad_floor (cval c) /\ bind (mapM range_of k) (fun fcs => _ <- mapM range_key fcs ;; Ok tt) = Err ValueError) \/
  ((forall c e, In c k -> ~ stumbles (cval c) e) /\ (forall c, In c k -> ~ bad_floor (cval c)) /\ bind (mapM range_of k) (fun fcs => _ <- mapM range_key fcs ;; Ok tt) = Ok tt).
Proof.
  destruct (mapM range_of k) as [fcs|e] eqn:M; cbn [bind].
  - right. assert (F := M). apply mapM_Ok in F.
    assert (NS : forall c e, In c k -> ~ stumbles (cval c) e).
    { intros c e I S. apply range_err in S. clear M. induction F as [|c' o k fcs H F IH]; [destruct I|]. destruct I as [->|I]; [congruence|auto]. }
    assert (X : (exists c, In c k /\ bad_floor (cval c) /\ mapM range_key fcs = Err ValueError) \/ ((forall c, In c k -> ~ bad_floor (cval c)) /\ exists u, mapM range_key fcs = Ok u)).
    { clear M NS. induction F as [|c o k fcs H F IH].
      - right. split; [intros c []|]. exists []. reflexivity.
      - cbn [mapM]. destruct (range_good _ _ H) as [(K & NB)|(K & B)]; rewrite K; cbn [bind].
        + destruct IH as [(c' & I & B & E)|(NB' & u & E)]; rewrite E; cbn [bind].
          * left. exists c'. split; [right; exact I|]. split; [exact B|reflexivity].
          * right. split; [|eexists; reflexivity]. intros c' [<-|I]; auto.
        + left. exists c. split; [left; reflexivity|]. split; [exact B|reflexivity]. }
    destruct X as [(c & I & B & E)|(NB & u & E)]; rewrite E; cbn [bind].
    + left. split; [exact NS|]. exists c. auto.
    + right. auto.
  - left. destruct (mapM_Err _ _ _ M) as (c & I & E). exists c, e. split; [exact I|]. split; [apply range_err; exact E|reflexivity].
Qed.
Lemma same_text v w : (v = w \/ py_eq v w = true) -> forall e, (stumbles v e <-> stumbles w e) /\ (bad_floor v <-> bad_floor w).
Proof.
  intros [->|Q] e; [split; reflexivity|]. destruct v as [s| | | |], w as [t| | | |]; try discriminate Q.
  { apply str_eqb_eq in Q. subst. split; reflexivity. }
  all: split; [split; intros [(_ & ->)|(s & V & _)]; try discriminate V; left; split; auto; intros s0 X; discriminate X|split; intros (s & a & b1 & V & _); discriminate V].
Qed.
Lemma listed l (P : pyval -> Prop) : (forall v w, (v = w \/ py_eq v w = true) -> P v <-> P w) ->
  (exists c, In c (get_conds l) /\ P (cval c)) <-> (exists r c, In r l /\ In c (conds r) /\ P (cval c)).
Proof.
  intros S. split.
  - intros (c & I & H). destruct (get_conds_In _ _ I) as (r & R & C). exists r, c. auto.
  - intros (r & c & I & J & H). destruct (get_conds_all _ _ _ I J) as (d & D & Q). exists d. split; [exact D|]. apply (S (cval c)); [|exact H].
    destruct Q as [->|Q]; [left; reflexivity|right]. unfold cond_eqb in Q. apply andb_prop in Q. destruct Q as [_ Q]. rewrite py_eq_sym. exact Q.
Qed.

(** ** C109 (C58 exactly): on data that has the features, the first prediction of a classifier initialised with a model raises if, and only if, some condition
    value of the model stumbles (not text: AttributeError; several dashes that are not one " - ": UnboundLocalError) or, when none does, is
    "floor - ceiling" with a floor that is no number (ValueError); otherwise it predicts exactly. The rules are never touched. *)
Theorem C109_first_predict_exact : forall cl m cf pc x cl1 X names fr,
  c_bt cl = None -> model_means m x -> init_ruleset cl m cf pc = (cl1, Ok tt) ->
  prediction_input X names cf fr -> good_frame fr -> frows fr <> [] -> distinct_labels fr -> (forall f, mentions (rs_rules x) f -> usable fr cf f) ->
  let rules := rs_rules x in let stumble := exists r c e, In r rules /\ In c (conds r) /\ stumbles (cval c) e in
  let bad := exists r c, In r rules /\ In c (conds r) /\ bad_floor (cval c) in
  exists cl2 o, clf_predict cl1 X names = (cl2, o) /\ rules_of cl2 = Some (map conds rules) /\
    ((exists e, o = Err e) <-> stumble \/ bad) /\
    (forall e, o = Err e -> stumble -> exists r c, In r rules /\ In c (conds r) /\ stumbles (cval c) e) /\
    (forall e, o = Err e -> ~ stumble -> e = ValueError) /\
    (forall preds, o = Ok preds -> Forall2 (fun rw p => p = true <-> sat_ruleset (fcols fr) rw rules) (frows fr) preds).
Proof.
  intros cl m cf pc x cl1 X names fr B M I PI G NE DL US rules stumble bad. apply means_from in M. destruct (init_suits _ _ _ _ _ _ _ _ _ M I PI G NE DL US) as (R & B1 & S). rewrite B in B1.
  destruct (prediction_frame_views (set_bt cl1 bt_empty) x cf pc (selected_features (rs_rules x)) bt_empty X names fr) as (df & E & V).
  { destruct R. constructor; auto. }
  { destruct S. constructor; auto. }
  destruct (views_predict _ _ _ _ _ _ _ _ _ S V) as (preds & EP & F).
  assert (P : clf_predict cl1 X names = (set_bt cl1 bt_empty, match construct_from_ruleset (rs_rules x) with Ok _ => Ok preds | Err e => Err e end)).
  { unfold clf_predict, ensure_bt. rewrite (rd_rs _ _ _ _ _ R), B1. destruct (construct_from_ruleset (rs_rules x)); [|reflexivity]. cbn [bind]. rewrite E. cbn [bind]. rewrite EP. reflexivity. }
  assert (LS : (exists c, In c (get_conds rules) /\ exists e, stumbles (cval c) e) <-> stumble).
  { unfold stumble. rewrite (listed rules (fun v => exists e, stumbles v e)).
    - split; [intros (r & c & I1 & I2 & e & H); exists r, c, e; auto|intros (r & c & e & H1 & H2 & H3); exists r, c; eauto].
    - intros v w Q. split; intros (e & H); exists e; apply (same_text v w Q e); exact H. }
  assert (LB : (exists c, In c (get_conds rules) /\ bad_floor (cval c)) <-> bad).
  { unfold bad. apply (listed rules bad_floor). intros v w Q. apply (same_text v w Q ValueError). }
  eexists. eexists. split; [exact P|]. split; [unfold rules_of; cbn [c_rs set_bt]; rewrite (rd_rs _ _ _ _ _ R); reflexivity|]. unfold construct_from_ruleset. fold rules.
  destruct (ranges_cases (get_conds rules)) as [(c & e & I1 & ST & K)|[(NS & c & I1 & BF & K)|(NS & NB & K)]]; rewrite K; clear K.
  - assert (SS : stumble) by (apply LS; exists c; split; [exact I1|exists e; exact ST]). split; [split; [auto|intros _; exists e; reflexivity]|].
    split; [|split; [intros e' _ N; destruct (N SS)|intros p Q; discriminate Q]]. intros e' Q _. injection Q as <-. destruct (get_conds_In _ _ I1) as (r & R1 & R2). exists r, c. auto.
  - assert (NN : ~ stumble) by (intros H; apply LS in H; destruct H as (d & D & e & H); destruct (NS _ _ D H)).
    assert (SB : bad) by (apply LB; exists c; auto). split; [split; [auto|intros _; exists ValueError; reflexivity]|].
    split; [intros e' _ H; destruct (NN H)|]. split; [intros e' Q _; congruence|intros p Q; discriminate Q].
  - assert (NN : ~ stumble) by (intros H; apply LS in H; destruct H as (d & D & e & H); destruct (NS _ _ D H)).
    assert (NBB : ~ bad) by (intros H; apply LB in H; destruct H as (d & D & H); destruct (NB _ D H)).
    split; [split; [intros (e & Q); discriminate Q|intros [H|H]; contradiction]|]. split; [intros e Q; discriminate Q|]. split; [intros e Q; discriminate Q|].
    intros p Q. injection Q as <-. eapply Forall2_imp; [|exact F]. intros rw p H. rewrite <- some_holds_raw. exact H.
Qed.
Print Assumptions C109_first_predict_exact.

(** The error of the first stumbling condition wins over a floor that is no number, wherever it stands *)
Example C109_nonvacuous :
  stumbles (PStr ($"2020-01-02")) UnboundLocalError /\ stumbles (PInt 1) AttributeError /\ bad_floor (PStr ($"a - b")) /\
  (~ exists e, stumbles (PStr ($"1.5 - 2")) e) /\ ~ bad_floor (PStr ($"1.5 - 2")) /\
  snd (clf_predict (init_with [Rule_ [c_ "day" "a - b"]; Rule_ [c_ "day" "2020-01-02"]]) (DFrame dated) None) = Err UnboundLocalError /\
  snd (clf_predict (init_with [Rule_ [c_ "day" "1.5 - 2"]; Rule_ [c_ "day" "b-day"]]) (DFrame dated) None) = Ok [false; false].
Proof.
  assert (G : split_sub ($" - ") ($"1.5 - 2") = [$"1.5"; $"2"]) by reflexivity. apply split_gap in G.
  split; [right; exists ($"2020-01-02"); split; [reflexivity|]; split; [vm_compute; auto|]; split; [|reflexivity]; intros a b H; apply split_gap in H; discriminate H|].
  split; [left; split; [intros s H; discriminate H|reflexivity]|].
  split; [exists ($"a - b"), ($"a"), ($"b"); split; [reflexivity|]; split; [apply split_gap; reflexivity|vm_compute; reflexivity]|].
  split; [intros (e & [(N & _)|(s & V & _ & N & _)]); [apply (N _ eq_refl)|injection V as <-; apply (N _ _ G)]|].
  split; [intros (s & a & b & V & H & P); injection V as <-; apply split_gap in H; assert (X : [a; b] = [$"1.5"; $"2"]) by (rewrite <- H; reflexivity); injection X as -> ->; vm_compute in P; discriminate P|].
  split; vm_compute; reflexivity.
Qed.
