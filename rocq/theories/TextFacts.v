(** * TextFacts.v : splitting, trimming, printing and reading rules *)
From Verif Require Export RuleFacts TextSpec.
Open Scope nat_scope.

Lemma ascii_eqb_refl c : Ascii.eqb c c = true. Proof. apply Ascii.eqb_eq. reflexivity. Qed.
Lemma join_cons sep p ps : ps <> [] -> join sep (p :: ps) = p ++ sep ++ join sep ps.
Proof. destruct ps; [congruence|reflexivity]. Qed.

(** ** split1 *)
Lemma split1_ne c s : split1 c s <> [].
Proof. destruct s as [|x s]; cbn [split1]; [discriminate|]. destruct (Ascii.eqb x c); [discriminate|]. destruct (split1 c s); discriminate. Qed.
Lemma split1_separated c s : separated c s (split1 c s).
Proof.
  induction s as [|x s (I1 & I2 & I3)].
  - split; [reflexivity|]. split; [discriminate|]. intros p [<-|[]]. auto.
  - cbn [split1]. destruct (Ascii.eqb x c) eqn:E.
    + apply Ascii.eqb_eq in E. subst x. split; [|split; [discriminate|]].
      * rewrite join_cons by auto. cbn [app]. congruence.
      * intros p [<-|P]; auto.
    + apply Ascii.eqb_neq in E. destruct (split1 c s) as [|h r] eqn:S; [congruence|]. split; [|split; [discriminate|]].
      * rewrite I1. destruct r; reflexivity.
      * intros p [<-|P].
        -- intros [->|A]; [congruence|]. apply (I3 h); [left; auto|auto].
        -- apply I3. right; auto.
Qed.
Lemma split1_app c a s : ~ In c a -> split1 c (a ++ c :: s) = a :: split1 c s.
Proof.
  induction a as [|x a IH]; intros N; cbn [app split1].
  - rewrite ascii_eqb_refl. reflexivity.
  - destruct (Ascii.eqb x c) eqn:E; [apply Ascii.eqb_eq in E; subst; exfalso; apply N; left; auto|].
    rewrite IH; [reflexivity|]. intros K. apply N. right; auto.
Qed.
Lemma split1_none c a : ~ In c a -> split1 c a = [a].
Proof.
  induction a as [|x a IH]; intros N; [reflexivity|]. cbn [split1].
  destruct (Ascii.eqb x c) eqn:E; [apply Ascii.eqb_eq in E; subst; exfalso; apply N; left; auto|].
  rewrite IH; [reflexivity|]. intros K. apply N. right; auto.
Qed.
Lemma separated_split c s parts : separated c s parts -> split1 c s = parts.
Proof.
  intros (-> & NE & H). revert NE H. induction parts as [|p ps IH]; intros NE H; [congruence|]. destruct ps as [|q ps].
  - cbn [join]. apply split1_none. apply H. left; auto.
  - rewrite join_cons by discriminate. cbn [app]. rewrite split1_app by (apply H; left; auto). f_equal.
    apply IH; [discriminate|]. intros p' P. apply H. right; auto.
Qed.
Lemma separated_iff c s parts : split1 c s = parts <-> separated c s parts.
Proof. split; [intros <-; apply split1_separated|apply separated_split]. Qed.

(** ** strip *)
Lemma lstrip_spec s : exists l, s = l ++ lstrip s /\ Forall (fun x => is_ws x = true) l /\ (forall x u, lstrip s = x :: u -> is_ws x = false).
Proof.
  induction s as [|x s (l & I1 & I2 & I3)].
  - exists []. split; auto. split; [constructor|]. discriminate.
  - cbn [lstrip]. destruct (is_ws x) eqn:W.
    + exists (x :: l). cbn [app]. split; [congruence|]. split; [constructor; auto|exact I3].
    + exists []. split; auto. split; [constructor|]. intros y u K. injection K as <- <-. exact W.
Qed.
Lemma strip_trimmed s : trimmed s (strip s).
Proof.
  unfold strip. destruct (lstrip_spec s) as (l & L1 & L2 & L3). destruct (lstrip_spec (rev (lstrip s))) as (r & R1 & R2 & R3).
  set (t := lstrip (rev (lstrip s))) in *. exists l, (rev r).
  assert (E : lstrip s = rev t ++ rev r) by (rewrite <- rev_app_distr, <- R1, rev_involutive; reflexivity).
  split; [rewrite <- E; exact L1|]. split; auto. split; [apply Forall_rev; auto|]. split.
  - intros x u K. apply (L3 x (u ++ rev r)). rewrite E, K. reflexivity.
  - intros x u K. apply (R3 x (rev u)). rewrite <- (rev_involutive t), K, rev_app_distr. reflexivity.
Qed.
Lemma lstrip_ws l s : Forall (fun x => is_ws x = true) l -> (forall x u, s = x :: u -> is_ws x = false) -> lstrip (l ++ s) = s.
Proof.
  intros F H. induction F as [|x l X F IH]; cbn [app lstrip].
  - destruct s as [|y s]; auto. cbn [lstrip]. rewrite (H y s eq_refl). reflexivity.
  - rewrite X. exact IH.
Qed.
Lemma trimmed_strip s t : trimmed s t -> strip s = t.
Proof.
  intros (l & r & -> & L & R & T1 & T2). unfold strip. destruct t as [|y t].
  - cbn [app]. assert (A : lstrip (l ++ r) = []).
    { rewrite <- (app_nil_r (l ++ r)). apply lstrip_ws; [apply Forall_app; auto|discriminate]. }
    rewrite A. reflexivity.
  - rewrite lstrip_ws; auto.
    + rewrite rev_app_distr. rewrite lstrip_ws; [apply rev_involutive|apply Forall_rev; auto|].
      intros x u K. apply (T2 x (rev u)). rewrite <- (rev_involutive (y :: t)), K. reflexivity.
    + cbn [app]. intros x u K. injection K as <- _. eapply T1; reflexivity.
Qed.
Lemma strip_iff s t : strip s = t <-> trimmed s t.
Proof. split; [intros <-; apply strip_trimmed|apply trimmed_strip]. Qed.

(** ** Reading *)
Lemma cond_fromstr_iff s c : cond_fromstr s = Ok c <-> reads_cond s c.
Proof.
  unfold cond_fromstr. destruct (split1_separated (ch "=") s) as (S1 & S2 & S3).
  split.
  - destruct (split1 (ch "=") s) as [|a [|b [|? ?]]] eqn:E; cbn [map]; try discriminate. intros H. injection H as <-.
    exists a, b, (strip a), (strip b). cbn [join app] in S1. split; auto. split; [apply S3; cbn; auto|]. split; [apply S3; cbn; auto|].
    split; [apply strip_trimmed|]. split; [apply strip_trimmed|]. reflexivity.
  - intros (a & b & f & v & -> & A & B & T1 & T2 & ->). rewrite split1_app, split1_none by auto. cbn [map].
    apply trimmed_strip in T1. apply trimmed_strip in T2. rewrite T1, T2. reflexivity.
Qed.
Lemma cond_fromstr_err s e : cond_fromstr s = Err e -> e = ValueError.
Proof. unfold cond_fromstr. destruct (map strip _) as [|a [|b [|? ?]]]; intros H; inversion H; auto. Qed.
Lemma mapM_iff {A B} (f : A -> res B) (R : A -> B -> Prop) : (forall a b, f a = Ok b <-> R a b) ->
  forall l l', mapM f l = Ok l' <-> Forall2 R l l'.
Proof.
  intros H. induction l as [|a l IH]; intros l'; cbn [mapM]; split.
  - intros K. injection K as <-. constructor.
  - intros K. inversion K; subst. reflexivity.
  - intros K. binv K. rename E into E1. binv K. injection K as <-. constructor; [apply H; auto|apply IH; auto].
  - intros K. inversion K as [|? b ? bs K1 K2]; subst. apply H in K1. rewrite K1. cbn [bind]. apply IH in K2. rewrite K2. reflexivity.
Qed.
Lemma brackets_picks s : no_brackets s (del_char (ch "]") (del_char (ch "[") s)).
Proof.
  unfold no_brackets, del_char. rewrite filter_filter. apply picks_filter. intros x _.
  rewrite Bool.andb_true_iff, !Bool.negb_true_iff, !Ascii.eqb_neq. tauto.
Qed.
Lemma no_brackets_eq s t : no_brackets s t -> del_char (ch "]") (del_char (ch "[") s) = t.
Proof. intros H. eapply picks_unique; [apply brackets_picks|exact H]. Qed.
Lemma true_text_iff s : str_eqb s ($"True") || str_eqb s ($"[True]") || str_eqb s ($"[]") = true <-> true_text s.
Proof. rewrite !Bool.orb_true_iff, !str_eqb_eq. unfold true_text. cbn [In]. intuition. Qed.
Lemma rule_fromstr_iff s r : rule_fromstr s = Ok r <-> reads_rule s r.
Proof.
  unfold rule_fromstr, reads_rule. destruct (str_eqb s _ || _ || _) eqn:T.
  - apply true_text_iff in T. split; [intros H; injection H as <-; auto|]. intros [[_ ->]|[N _]]; [reflexivity|contradiction].
  - assert (NT : ~ true_text s) by (rewrite <- true_text_iff, T; discriminate). split.
    + intros H. right. split; auto. destruct (mapM cond_fromstr _) as [cs|] eqn:M; [|discriminate]. injection H as <-. exists cs. split; auto.
      exists (del_char (ch "]") (del_char (ch "[") s)). eexists. split; [apply brackets_picks|]. split; [apply split1_separated|].
      apply (mapM_iff _ _ cond_fromstr_iff). exact M.
    + intros [[K _]|[_ (cs & (t & parts & NB & SE & F) & ->)]]; [contradiction|]. rewrite (no_brackets_eq s t NB), (separated_split _ _ _ SE).
      apply (mapM_iff _ _ cond_fromstr_iff) in F. rewrite F. reflexivity.
Qed.
Lemma rule_fromstr_err s e : rule_fromstr s = Err e -> e = ValueError.
Proof. unfold rule_fromstr. destruct (_ || _ || _); [discriminate|]. destruct (mapM _ _); intros H; [discriminate|]. injection H as <-; auto. Qed.
Lemma empty_text_iff s : str_eqb s [] || str_eqb s ($"[]") || str_eqb s ($"[[]]") = true <-> empty_text s.
Proof. rewrite !Bool.orb_true_iff, !str_eqb_eq. unfold empty_text. cbn [In]. intuition. Qed.
Lemma ruleset_fromstr_iff s rs : ruleset_fromstr s = Ok rs <-> reads_ruleset s rs.
Proof.
  unfold ruleset_fromstr, reads_ruleset. destruct (str_eqb s [] || _ || _) eqn:T.
  - apply empty_text_iff in T. split; [intros H; injection H as <-; auto|]. intros [[_ ->]|[N _]]; [reflexivity|contradiction].
  - assert (NT : ~ empty_text s) by (rewrite <- empty_text_iff, T; discriminate). split.
    + intros H. right. split; auto. destruct (mapM rule_fromstr _) as [l|] eqn:M; [|discriminate]. injection H as <-.
      eexists. split; [apply split1_separated|]. apply (mapM_iff _ _ rule_fromstr_iff). exact M.
    + intros [[K _]|[_ (parts & SE & F)]]; [contradiction|]. rewrite (separated_split _ _ _ SE).
      apply (mapM_iff _ _ rule_fromstr_iff) in F. rewrite F. reflexivity.
Qed.
Lemma ruleset_fromstr_err s e : ruleset_fromstr s = Err e -> e = ValueError.
Proof. unfold ruleset_fromstr. destruct (_ || _ || _); [discriminate|]. destruct (mapM _ _); intros H; [discriminate|]. injection H as <-; auto. Qed.

(** ** Printing plain rules *)
Definition safe (c : ascii) : Prop :=
  33 <= nat_of_ascii c <= 126 /\ c <> ch "," /\ c <> ch "^" /\ c <> ch "[" /\ c <> ch "]" /\ c <> squote /\ c <> ascii_of_nat 92 /\ c <> ch "V".
Lemma plain_safe c : plain_char c -> safe c /\ c <> ch "=".
Proof. intros [R N]. cbn [In] in N. unfold safe. intuition congruence. Qed.
Lemma safe_eq : safe (ch "=").
Proof. unfold safe. repeat split; try (cbn; lia); discriminate. Qed.
Lemma safe_ws c : safe c -> is_ws c = false.
Proof.
  intros [R _]. unfold is_ws. destruct ((9 <=? _) && _) eqn:A; [apply andb_prop in A; destruct A as [_ A]; apply Nat.leb_le in A; lia|].
  cbn [orb]. apply Bool.andb_false_iff. right. apply Nat.leb_gt. lia.
Qed.
Lemma repr_safe_char c : safe c -> repr_char squote c = [c].
Proof.
  intros (R & _ & _ & _ & _ & Q & B & _). unfold repr_char.
  assert (E1 : Ascii.eqb c squote = false) by (apply Ascii.eqb_neq; auto).
  assert (E2 : nat_of_ascii c =? 92 = false).
  { apply Nat.eqb_neq. intros K. apply B. rewrite <- K. symmetry. apply ascii_nat_embedding. }
  rewrite E1, E2. cbn [orb].
  replace (nat_of_ascii c =? 9) with false by (symmetry; apply Nat.eqb_neq; lia).
  replace (nat_of_ascii c =? 10) with false by (symmetry; apply Nat.eqb_neq; lia).
  replace (nat_of_ascii c =? 13) with false by (symmetry; apply Nat.eqb_neq; lia).
  replace (nat_of_ascii c <? 32) with false by (symmetry; apply Nat.ltb_ge; lia).
  replace (nat_of_ascii c =? 127) with false by (symmetry; apply Nat.eqb_neq; lia). reflexivity.
Qed.
Lemma repr_safe s : Forall safe s -> repr_str s = squote :: s ++ [squote].
Proof.
  intros F. unfold repr_str. assert (has_char squote s = false) as ->.
  { unfold has_char. apply Bool.not_true_iff_false. rewrite existsb_exists. intros (x & I & E). apply Ascii.eqb_eq in E. subst x.
    rewrite Forall_forall in F. apply F in I. unfold safe in I. tauto. }
  cbn [andb]. assert (flat_map (repr_char squote) s = s) as ->; [|reflexivity].
  induction F as [|c s C F IH]; [reflexivity|]. cbn [flat_map]. rewrite repr_safe_char, IH by auto. reflexivity.
Qed.
Definition clean (s : str) : str := del_char (ch " ") (del_char squote (sub_char (ch ",") (ch "^") s)).
Lemma clean_app a b : clean (a ++ b) = clean a ++ clean b.
Proof. unfold clean, del_char, sub_char. rewrite map_app, !filter_app. reflexivity. Qed.
Lemma clean_safe s : Forall safe s -> clean s = s.
Proof.
  intros F. assert (A : sub_char (ch ",") (ch "^") s = s).
  { unfold sub_char. induction F as [|c s C F IH]; [reflexivity|]. cbn [map]. rewrite IH.
    destruct (Ascii.eqb c (ch ",")) eqn:E; [apply Ascii.eqb_eq in E; unfold safe in C; tauto|reflexivity]. }
  unfold clean. rewrite A. unfold del_char. rewrite filter_filter. apply filter_all. intros x I. rewrite Forall_forall in F. apply F in I.
  rewrite Bool.andb_true_iff, !Bool.negb_true_iff, !Ascii.eqb_neq. split.
  - unfold safe in I. tauto.
  - intros ->. destruct I as [R _]. cbn in R. lia.
Qed.
Lemma clean_join l : (forall s, In s l -> Forall safe s) -> clean (join ($", ") (map repr_str l)) = join [ch "^"] l.
Proof.
  induction l as [|s l IH]; intros F; [reflexivity|].
  assert (C1 : clean (repr_str s) = s).
  { rewrite repr_safe by (apply F; left; auto). change (squote :: s ++ [squote]) with ([squote] ++ s ++ [squote]).
    rewrite !clean_app, (clean_safe s) by (apply F; left; auto). change (clean [squote]) with (@nil ascii). rewrite app_nil_r. reflexivity. }
  destruct l as [|s2 l].
  - exact C1.
  - cbn [map]. rewrite (join_cons ($", ")) by discriminate. rewrite (join_cons [ch "^"] s) by discriminate. rewrite !clean_app, C1.
    change (clean ($", ")) with [ch "^"]. rewrite <- IH by (intros x X; apply F; right; auto). reflexivity.
Qed.
Lemma rule_str_safe r : conds r <> [] -> (forall c, In c (conds r) -> Forall safe (cond_str c)) ->
  rule_str r = ch "[" :: join [ch "^"] (map cond_str (conds r)) ++ [ch "]"].
Proof.
  intros NE F. unfold rule_str. destruct (conds r) as [|c cs] eqn:C; [congruence|]. rewrite <- C in *.
  change (clean (str_of_list (map cond_str (conds r))) = ch "[" :: join [ch "^"] (map cond_str (conds r)) ++ [ch "]"]).
  unfold str_of_list. rewrite !clean_app, clean_join; [reflexivity|]. intros s I. apply in_map_iff in I. destruct I as (d & <- & I). auto.
Qed.
Lemma In_join c sep ps : In c (join sep ps) -> In c sep \/ exists p, In p ps /\ In c p.
Proof.
  induction ps as [|p ps IH]; [intros []|]. destruct ps as [|q ps].
  - intros I. right. exists p. cbn; auto.
  - rewrite join_cons by discriminate. rewrite !in_app_iff. intros [I|[I|I]]; auto.
    + right. exists p. cbn; auto.
    + destruct (IH I) as [K|(p' & K1 & K2)]; auto. right. exists p'. split; auto. right; auto.
Qed.
Lemma cond_str_eq f v : cond_str (mkcond (PStr f) (PStr v)) = f ++ ch "=" :: v.
Proof. reflexivity. Qed.
Lemma plain_cond c : plain (cfeat c) -> plain (cval c) -> Forall safe (cond_str c) /\ reads_cond (cond_str c) c.
Proof.
  destruct c as [f v]. cbn [cfeat cval]. intros (s & -> & F) (t & -> & G). rewrite cond_str_eq.
  assert (S1 : Forall safe s /\ ~ In (ch "=") s). { split; [eapply Forall_impl; [|exact F]; apply plain_safe|]. intros I. rewrite Forall_forall in F. apply F, plain_safe in I. tauto. }
  assert (S2 : Forall safe t /\ ~ In (ch "=") t). { split; [eapply Forall_impl; [|exact G]; apply plain_safe|]. intros I. rewrite Forall_forall in G. apply G, plain_safe in I. tauto. }
  split; [apply Forall_app; split; [tauto|constructor; [apply safe_eq|tauto]]|].
  assert (TR : forall u, Forall safe u -> trimmed u u).
  { intros u U. exists [], []. rewrite app_nil_r. rewrite Forall_forall in U. split; auto. split; [constructor|]. split; [constructor|].
    split; intros x w ->; apply safe_ws, U; [left; auto|apply in_or_app; right; left; auto]. }
  exists s, t, s, t. repeat split; try tauto; apply TR; tauto.
Qed.
Lemma picks_del s t : picks (fun x => x <> ch "[" /\ x <> ch "]") s t -> picks (fun x => x <> ch "[" /\ x <> ch "]") s t. Proof. auto. Qed.
(** a printed plain rule, with blanks and extra brackets around it, reads back *)
Lemma rule_reads r l rr : plain_rule r -> Forall (fun x => x = ch " " \/ x = ch "[" \/ x = ch "]") (l ++ rr) ->
  exists r', rule_fromstr (l ++ rule_str r ++ rr) = Ok r' /\ conds r' = conds r.
Proof.
  intros [NE PL] B. apply Forall_app in B. destruct B as [B1 B2].
  assert (SA : forall c, In c (conds r) -> Forall safe (cond_str c)) by (intros c I; apply plain_cond; apply PL; auto).
  set (J := join [ch "^"] (map cond_str (conds r))). set (S := l ++ rule_str r ++ rr).
  assert (DB : forall u, Forall safe u -> del_char (ch "]") (del_char (ch "[") u) = u).
  { intros u U. unfold del_char. rewrite filter_filter. apply filter_all. intros x I. rewrite Forall_forall in U. apply U in I.
    rewrite Bool.andb_true_iff, !Bool.negb_true_iff, !Ascii.eqb_neq. unfold safe in I. tauto. }
  assert (D : forall a b, del_char (ch "]") (del_char (ch "[") (a ++ b)) = del_char (ch "]") (del_char (ch "[") a) ++ del_char (ch "]") (del_char (ch "[") b)).
  { intros a b. unfold del_char. rewrite !filter_app. reflexivity. }
  set (w := fun u => del_char (ch "]") (del_char (ch "[") u)).
  assert (W : forall u, Forall (fun x => x = ch " " \/ x = ch "[" \/ x = ch "]") u -> Forall (fun x => x = ch " ") (w u)).
  { intros u U. rewrite Forall_forall in *. intros x I. unfold w, del_char in I. rewrite !filter_In in I. destruct I as [[I I1] I2].
    apply Bool.negb_true_iff in I1, I2. apply Ascii.eqb_neq in I1, I2. destruct (U x I) as [ | [ | ] ]; congruence. }
  assert (DJ : del_char (ch "]") (del_char (ch "[") J) = J).
  { unfold del_char. rewrite filter_filter. apply filter_all. intros x I. apply In_join in I.
    rewrite Bool.andb_true_iff, !Bool.negb_true_iff, !Ascii.eqb_neq. destruct I as [[<-|[]]|(p & I1 & I2)]; [split; discriminate|].
    apply in_map_iff in I1. destruct I1 as (c & <- & I1). specialize (SA c I1). rewrite Forall_forall in SA. apply SA in I2. unfold safe in I2. tauto. }
  assert (E : w S = w l ++ J ++ w rr).
  { unfold S, w. rewrite rule_str_safe by auto. rewrite !D. fold J. change (ch "[" :: J ++ [ch "]"]) with ([ch "["] ++ J ++ [ch "]"]). rewrite !D, DJ.
    cbn [app]. rewrite app_nil_r. reflexivity. }
  assert (NT : str_eqb S ($"True") || str_eqb S ($"[True]") || str_eqb S ($"[]") = false).
  { apply Bool.not_true_iff_false. rewrite true_text_iff. intros T.
    assert (Q : In (ch "=") (w S)).
    { rewrite E. apply in_or_app. right. apply in_or_app. left. unfold J. destruct (conds r) as [|c cs]; [congruence|]. cbn [map].
      assert (In (ch "=") (cond_str c)) by (destruct c as [f v]; unfold cond_str; apply in_or_app; right; left; reflexivity).
      destruct (map cond_str cs); [auto|]. rewrite join_cons by discriminate. apply in_or_app; auto. }
    unfold w, del_char in Q. rewrite !filter_In in Q. destruct Q as [[Q _] _]. destruct T as [<-|[<-|[<-|[]]]]; cbn in Q;
    repeat (destruct Q as [Q|Q]; [discriminate|]); destruct Q. }
  unfold rule_fromstr. rewrite NT. fold (w S). rewrite E.
  (* the pieces *)
  assert (WS : forall u, Forall (fun x => x = ch " ") u -> Forall (fun x => is_ws x = true) u /\ ~ In (ch "^") u /\ ~ In (ch "=") u).
  { intros u U. rewrite Forall_forall in U. split; [rewrite Forall_forall; intros x I; rewrite (U x I); reflexivity|].
    split; intros I; apply U in I; discriminate. }
  pose proof (WS _ (W l B1)) as (WL1 & WL2 & WL3). pose proof (WS _ (W rr B2)) as (WR1 & WR2 & WR3).
  assert (NCR : forall c, In c (conds r) -> ~ In (ch "^") (cond_str c)).
  { intros c I K. specialize (SA c I). rewrite Forall_forall in SA. apply SA in K. unfold safe in K. tauto. }
  assert (PIECES : forall cs (L R : str), cs <> [] -> (forall c, In c cs -> In c (conds r)) ->
    Forall (fun x => is_ws x = true) L -> ~ In (ch "^") L -> ~ In (ch "=") L -> Forall (fun x => is_ws x = true) R -> ~ In (ch "^") R -> ~ In (ch "=") R ->
    mapM cond_fromstr (split1 (ch "^") (L ++ join [ch "^"] (map cond_str cs) ++ R)) = Ok cs).
  { assert (ONE : forall c (L R : str), In c (conds r) -> Forall (fun x => is_ws x = true) L -> ~ In (ch "=") L ->
       Forall (fun x => is_ws x = true) R -> ~ In (ch "=") R -> cond_fromstr (L ++ cond_str c ++ R) = Ok c).
    { intros c L R I L1 L2 R1 R2. apply cond_fromstr_iff. destruct (PL c I) as [PF PV]. destruct c as [f v]. cbn [cfeat cval] in PF, PV.
      destruct (plain_cond (mkcond f v) PF PV) as [_ (a & b & f' & v' & E1 & E2 & E3 & (l1 & r1 & T1 & T2 & T3 & T4) & (l2 & r2 & U1 & U2 & U3 & U4) & EQ)].
      injection EQ as EQ1 EQ2. subst f v. rewrite E1. exists (L ++ a), (b ++ R), f', v'. split; [rewrite <- !app_assoc; cbn [app]; rewrite <- ?app_assoc; reflexivity|].
      split; [rewrite in_app_iff; tauto|]. split; [rewrite in_app_iff; tauto|]. split; [|split; [|reflexivity]].
      - exists (L ++ l1), r1. split; [rewrite T1, <- app_assoc; reflexivity|]. split; [apply Forall_app; auto|]. auto.
      - exists l2, (r2 ++ R). split; [rewrite U1, <- !app_assoc; reflexivity|]. split; auto. split; [apply Forall_app; auto|]. auto. }
    induction cs as [|c cs IH]; intros L R NN IN L1 L2 L3 R1 R2 R3; [congruence|]. destruct cs as [|c2 cs].
    - cbn [map join]. rewrite split1_none.
      + cbn [mapM]. rewrite ONE by (auto; apply IN; left; auto). reflexivity.
      + rewrite !in_app_iff. intros [K|[K|K]]; auto. apply (NCR c); auto. apply IN; left; auto.
    - cbn [map]. rewrite join_cons by discriminate. rewrite <- !app_assoc. cbn [app]. rewrite app_assoc, split1_app.
      + cbn [mapM]. assert (ON : cond_fromstr (L ++ cond_str c) = Ok c).
        { rewrite <- (app_nil_r (cond_str c)). apply ONE; auto. apply IN; left; auto. }
        rewrite ON. cbn [bind].
        specialize (IH [] R ltac:(discriminate) ltac:(intros d X; apply IN; right; auto) ltac:(constructor) ltac:(auto) ltac:(auto) R1 R2 R3).
        cbn [map app] in IH. rewrite IH. reflexivity.
      + rewrite in_app_iff. intros [K|K]; auto. apply (NCR c); auto. apply IN; left; auto. }
  unfold J. rewrite PIECES; auto. eexists. split; reflexivity.
Qed.
Lemma rule_str_noV r : plain_rule r -> ~ In (ch "V") (rule_str r).
Proof.
  intros [NE PL]. rewrite rule_str_safe; auto; [|intros c I; apply plain_cond; apply PL; auto].
  intros [K|K]; [discriminate|]. apply in_app_iff in K. destruct K as [K|[K|[]]]; [|discriminate].
  apply In_join in K. destruct K as [[K|[]]|(p & K1 & K2)]; [discriminate|]. apply in_map_iff in K1. destruct K1 as (c & <- & I).
  destruct (plain_cond c) as [S _]; try apply PL; auto. rewrite Forall_forall in S. apply S in K2. unfold safe in K2. tauto.
Qed.
(** the pieces between the V's *)
Fixpoint vparts (first : bool) (rs : list rule) : list str :=
  match rs with
  | [] => []
  | [r] => [(if first then $"[" else $" ") ++ rule_str r ++ $"]"]
  | r :: t => ((if first then $"[" else $" ") ++ rule_str r ++ $" ") :: vparts false t
  end.
Lemma vparts_ne f r rs : vparts f (r :: rs) <> []. Proof. destruct rs; discriminate. Qed.
Lemma vparts_join f rs : rs <> [] ->
  join [ch "V"] (vparts f rs) = (if f then $"[" else $" ") ++ join ($" V ") (map rule_str rs) ++ $"]".
Proof.
  revert f. induction rs as [|r rs IH]; intros f NE; [congruence|]. destruct rs as [|r2 rs].
  - reflexivity.
  - change (vparts f (r :: r2 :: rs)) with (((if f then $"[" else $" ") ++ rule_str r ++ $" ") :: vparts false (r2 :: rs)).
    rewrite (join_cons [ch "V"]) by apply vparts_ne. rewrite IH by discriminate.
    cbn [map]. rewrite (join_cons ($" V ") (rule_str r)) by discriminate. rewrite <- !app_assoc. reflexivity.
Qed.
Lemma vparts_noV f rs : (forall r, In r rs -> plain_rule r) -> forall p, In p (vparts f rs) -> ~ In (ch "V") p.
Proof.
  revert f. induction rs as [|r rs IH]; intros f H p I; [destruct I|].
  assert (N : forall a b, ~ In (ch "V") a -> ~ In (ch "V") b -> ~ In (ch "V") (a ++ rule_str r ++ b)).
  { intros a b A B. rewrite !in_app_iff. intros [K|[K|K]]; auto. revert K. apply rule_str_noV. apply H. left; auto. }
  destruct rs as [|r2 rs].
  - destruct I as [<-|[]]. apply N; [destruct f|]; cbn; intuition discriminate.
  - cbn [vparts] in I. destruct I as [<-|I]; [apply N; [destruct f|]; cbn; intuition discriminate|].
    apply (IH false); auto. intros s S. apply H. right; auto.
Qed.
Lemma vparts_read f rs : (forall r, In r rs -> plain_rule r) ->
  exists rs', mapM rule_fromstr (vparts f rs) = Ok rs' /\ map conds rs' = map conds rs.
Proof.
  revert f. induction rs as [|r rs IH]; intros f H; [exists []; split; reflexivity|].
  assert (B : forall x, In x [$"["; $" "; $"]"] -> Forall (fun x => x = ch " " \/ x = ch "[" \/ x = ch "]") x).
  { intros x [<-|[<-|[<-|[]]]]; (constructor; [auto|constructor]). }
  destruct rs as [|r2 rs].
  - destruct (rule_reads r (if f then $"[" else $" ") ($"]")) as (r' & R1 & R2).
    + apply H; left; auto.
    + apply Forall_app. split; [destruct f|]; apply B; cbn; auto.
    + exists [r']. cbn [vparts mapM]. rewrite R1. cbn [bind map]. split; [reflexivity|congruence].
  - destruct (rule_reads r (if f then $"[" else $" ") ($" ")) as (r' & R1 & R2).
    + apply H; left; auto.
    + apply Forall_app. split; [destruct f|]; apply B; cbn; auto.
    + destruct (IH false) as (rs' & I1 & I2); [intros s S; apply H; right; auto|].
      exists (r' :: rs'). change (vparts f (r :: r2 :: rs)) with (((if f then $"[" else $" ") ++ rule_str r ++ $" ") :: vparts false (r2 :: rs)).
      cbn [mapM]. rewrite R1. cbn [bind]. rewrite I1. cbn [bind map]. split; [reflexivity|]. cbn [map] in I2. congruence.
Qed.
Lemma rs_str_roundtrip rs : (forall r, In r rs -> plain_rule r) -> exists rs', ruleset_fromstr (rs_str rs) = Ok rs' /\ map conds rs' = map conds rs.
Proof.
  intros H. destruct rs as [|r0 rs0] eqn:E; [exists []; split; reflexivity|]. rewrite <- E in *.
  assert (NE : rs <> []) by (subst; discriminate). clear E.
  unfold ruleset_fromstr.
  assert (V : rs_str rs = join [ch "V"] (vparts true rs)) by (rewrite vparts_join by auto; reflexivity).
  assert (SE : separated (ch "V") (rs_str rs) (vparts true rs)).
  { split; auto. split; [destruct rs; [congruence|apply vparts_ne]|apply vparts_noV; auto]. }
  destruct (vparts_read true rs H) as (rs' & R1 & R2).
  destruct (str_eqb (rs_str rs) [] || _ || _) eqn:T.
  - exfalso. apply empty_text_iff in T.
    assert (Q : In (ch "=") (rs_str rs)).
    { destruct rs as [|r t]; [congruence|]. destruct (H r (or_introl eq_refl)) as [NC PL].
      assert (In (ch "=") (rule_str r)).
      { rewrite rule_str_safe; auto; [|intros c I; apply plain_cond; apply PL; auto]. right. apply in_or_app. left.
        destruct (conds r) as [|c cs]; [congruence|]. cbn [map].
        assert (In (ch "=") (cond_str c)) by (unfold cond_str; apply in_or_app; right; left; reflexivity).
        destruct (map cond_str cs); [auto|]. rewrite join_cons by discriminate. apply in_or_app; auto. }
      unfold rs_str. apply in_or_app. right. apply in_or_app. left. cbn [map]. destruct (map rule_str t); [auto|].
      rewrite join_cons by discriminate. apply in_or_app; auto. }
    destruct T as [T|[T|[T|[]]]]; rewrite <- T in Q; cbn in Q; repeat (destruct Q as [Q|Q]; [discriminate|]); destruct Q.
  - rewrite (separated_split _ _ _ SE), R1. eauto.
Qed.
