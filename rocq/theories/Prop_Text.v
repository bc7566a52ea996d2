(** * Prop_Text.v : printed rules (C11, C12) *)
From Verif Require Import TextFacts Demo.
Open Scope nat_scope.

(** predictions only depend on the conditions of the rules *)
Lemma predict_conds rs rs' fr : map conds rs = map conds rs' -> rs_predict rs fr = rs_predict rs' fr.
Proof.
  intros H. unfold rs_predict. assert (rs_covers rs fr = rs_covers rs' fr) as ->; [|reflexivity]. unfold rs_covers.
  assert (rs_isuniversal rs = rs_isuniversal rs') as ->.
  { unfold rs_isuniversal. revert rs' H. induction rs as [|r rs IH]; intros [|r' rs'] H; try discriminate; auto.
    injection H as H1 H2. cbn [existsb]. rewrite (IH rs' H2). unfold rule_isempty. rewrite H1. reflexivity. }
  assert (rs_isnull rs = rs_isnull rs') as -> by (destruct rs, rs'; try discriminate; reflexivity).
  assert (mapM (fun r => rule_covers r fr) rs = mapM (fun r => rule_covers r fr) rs') as ->; [|reflexivity].
  revert rs' H. induction rs as [|r rs IH]; intros [|r' rs'] H; try discriminate; auto.
  injection H as H1 H2. cbn [mapM]. rewrite (IH rs' H2). unfold rule_covers. rewrite H1. reflexivity.
Qed.

(** C11, for rules over plain text (non-empty rules; features and values are text without blanks or the grammar's own characters) *)
Theorem C11_print_parse_partial : forall rs, (forall r, In r rs -> plain_rule r) ->
  exists rs', asruleset (OStr (rs_str rs)) = Ok rs' /\ map conds rs' = map conds rs /\ forall fr, rs_predict rs' fr = rs_predict rs fr.
Proof.
  intros rs H. destruct (rs_str_roundtrip rs H) as (rs' & R1 & R2). exists rs'. split; auto. split; auto. intros fr. apply predict_conds; auto.
Qed.
Print Assumptions C11_print_parse_partial.
Example C11_nonvacuous : (forall r, In r [Rule_ [c_ "outlook" "sunny"; c_ "wind" "weak"]; Rule_ [c_ "temp" "15-20"]] -> plain_rule r) /\
  rs_str [Rule_ [c_ "outlook" "sunny"; c_ "wind" "weak"]; Rule_ [c_ "temp" "15-20"]] = $"[[outlook=sunny^wind=weak] V [temp=15-20]]".
Proof.
  split; [|reflexivity].
  assert (P : forall x, forallb (fun c => (33 <=? nat_of_ascii c) && (nat_of_ascii c <=? 126) &&
     forallb (fun d => negb (Ascii.eqb c d)) [ch ","; ch "^"; ch "="; ch "["; ch "]"; squote; ascii_of_nat 92; ch "V"]) (lit x) = true -> plain (s_ x)).
  { intros x H. exists (lit x). split; auto. apply Forall_forall. intros c I. rewrite forallb_forall in H. apply H in I.
    apply andb_prop in I. destruct I as [I I3]. apply andb_prop in I. destruct I as [I1 I2]. apply Nat.leb_le in I1, I2. split; [lia|].
    intros K. rewrite forallb_forall in I3. apply I3 in K. rewrite ascii_eqb_refl in K. discriminate. }
  intros r [<-|[<-|[]]]; (split; [discriminate|]); intros c; cbn [conds Rule_ In]; intros K;
  repeat (destruct K as [<-|K]; [split; apply P; reflexivity|]); destruct K.
Qed.
(** the general claim fails: blanks are lost, a capital V splits the text, numbers come back as text, the empty rule is not readable *)
Theorem C11_print_parse_refuted :
  (exists rs', asruleset (OStr (rs_str [Rule_ [c_ "sky" "light rain"]])) = Ok rs' /\ map conds rs' = [[c_ "sky" "lightrain"]] /\
     exists fr, good_frame fr /\ rs_predict [Rule_ [c_ "sky" "light rain"]] fr = Ok [true] /\ rs_predict rs' fr = Ok [false]) /\
  asruleset (OStr (rs_str [Rule_ [c_ "Vote" "yes"]])) = Err ValueError /\
  (exists rs', asruleset (OStr (rs_str [Rule_ [mkcond (s_ "age") (PInt 7)]])) = Ok rs' /\
     exists fr, good_frame fr /\ rs_predict [Rule_ [mkcond (s_ "age") (PInt 7)]] fr = Ok [true] /\ rs_predict rs' fr = Ok [false]) /\
  asruleset (OStr (rs_str [Rule_ []])) = Err ValueError.
Proof.
  split.
  - eexists. split; [vm_compute; reflexivity|]. split; [vm_compute; reflexivity|].
    exists (mkframe [s_ "sky"] [mkrow 0 [s_ "light rain"]]). split; [apply CoverFacts.good_frameb_ok; reflexivity|]. split; vm_compute; reflexivity.
  - split; [vm_compute; reflexivity|]. split; [|vm_compute; reflexivity].
    eexists. split; [vm_compute; reflexivity|].
    exists (mkframe [s_ "age"] [mkrow 0 [PInt 7]]). split; [apply CoverFacts.good_frameb_ok; reflexivity|]. split; vm_compute; reflexivity.
Qed.
Print Assumptions C11_print_parse_refuted.

(** C12: exactly the well-formed texts are accepted, everything else is a ValueError *)
Theorem C12_condition_text : forall s,
  (forall c, ascond (OStr s) = Ok c <-> reads_cond s c) /\ (forall e, ascond (OStr s) = Err e -> e = ValueError).
Proof. intros s. split; [apply cond_fromstr_iff|apply cond_fromstr_err]. Qed.
Print Assumptions C12_condition_text.
Theorem C12_rule_text : forall s,
  (forall r, asrule (OStr s) = Ok (Some r) <-> reads_rule s r) /\ asrule (OStr s) <> Ok None /\ (forall e, asrule (OStr s) = Err e -> e = ValueError).
Proof.
  intros s. cbn [asrule]. destruct (rule_fromstr s) as [r|e] eqn:E; cbn [bind].
  - split; [|split; [discriminate|discriminate]]. intros r'. rewrite <- rule_fromstr_iff, E. split; intros H; injection H as ->; auto.
  - split; [|split; [discriminate|intros e' H; injection H as <-; apply rule_fromstr_err in E; auto]].
    intros r'. rewrite <- rule_fromstr_iff, E. split; discriminate.
Qed.
Print Assumptions C12_rule_text.
Theorem C12_ruleset_text : forall s,
  (forall rs, asruleset (OStr s) = Ok rs <-> reads_ruleset s rs) /\ (forall e, asruleset (OStr s) = Err e -> e = ValueError).
Proof. intros s. split; [apply ruleset_fromstr_iff|apply ruleset_fromstr_err]. Qed.
Print Assumptions C12_ruleset_text.
(** in particular a condition without exactly one '=' anywhere in the text makes the whole text unreadable *)
Lemma cond_one_eq s c : reads_cond s c -> count_occ ascii_dec s (ch "=") = 1.
Proof.
  intros (a & b & f & v & -> & A & B & _). rewrite count_occ_app. cbn [count_occ]. destruct (ascii_dec (ch "=") (ch "=")); [|congruence].
  apply (count_occ_not_In ascii_dec) in A. apply (count_occ_not_In ascii_dec) in B. rewrite A, B. reflexivity.
Qed.
Theorem C12_bad_condition_rejected : forall s rp rule_text t cp cond_text,
  ~ empty_text s -> separated (ch "V") s rp -> In rule_text rp -> ~ true_text rule_text ->
  no_brackets rule_text t -> separated (ch "^") t cp -> In cond_text cp -> count_occ ascii_dec cond_text (ch "=") <> 1 ->
  asruleset (OStr s) = Err ValueError.
Proof.
  intros s rp rt t cp ct NE S1 I1 NT NB S2 I2 CO. destruct (asruleset (OStr s)) as [rs|e] eqn:E.
  - exfalso. apply C12_ruleset_text in E. destruct E as [[E _]|[_ (parts & P & F)]]; [contradiction|].
    apply separated_split in P. apply separated_split in S1. rewrite S1 in P. subst parts.
    apply in_split in I1. destruct I1 as (u & v & ->). apply Forall2_app_inv_l in F. destruct F as (l1 & l2 & _ & F & _).
    inversion F as [|? r ? ? R _]; subst. destruct R as [[R _]|[_ (cs & (t' & parts & NB' & S' & G) & _)]]; [contradiction|].
    apply no_brackets_eq in NB. apply no_brackets_eq in NB'. rewrite NB in NB'. subst t'.
    apply separated_split in S2. apply separated_split in S'. rewrite S2 in S'. subst parts.
    apply in_split in I2. destruct I2 as (u' & v' & ->). apply Forall2_app_inv_l in G. destruct G as (m1 & m2 & _ & G & _).
    inversion G as [|? c ? ? C _]; subst. apply cond_one_eq in C. contradiction.
  - f_equal. eapply C12_ruleset_text; eauto.
Qed.
Print Assumptions C12_bad_condition_rejected.
Example C12_nonvacuous : asruleset (OStr ($"[[a=b ^ c = d] V [e=f]]")) = Ok [Rule_ [c_ "a" "b"; c_ "c" "d"]; Rule_ [c_ "e" "f"]] /\
  asruleset (OStr ($"[[a=b ^ c] V [e=f]]")) = Err ValueError.
Proof. split; vm_compute; reflexivity. Qed.
