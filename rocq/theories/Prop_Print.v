(** * Prop_Print.v : what is shown of a model: truncstr, out_model (C69) *)
From Verif Require Import TextFacts Classifier ClfFacts Demo Prop_Helpers Prop_Prep Prop_Fit Prop_FitModel.
Open Scope nat_scope.

(** The text a reader expects of out_model: one line per rule, in order, conditions joined by " ^ ", lines joined by " V" *)
Definition shown_rule (r : rule) : str :=
  match conds r with [] => lit "[True]" | cs => lit "[" ++ join (lit " ^ ") (map cond_str cs) ++ lit "]" end.
Definition display (rs : list rule) : str := lit "[" ++ join (lit " V" ++ [ascii_of_nat 10]) (map shown_rule rs) ++ lit "]".
(** printable, no blank, comma, caret, single quote or backslash *)
Definition legible (c : ascii) : Prop :=
  33 <= nat_of_ascii c <= 126 /\ c <> ch "," /\ c <> ch "^" /\ c <> squote /\ c <> ascii_of_nat 92.
Definition legible_rule (r : rule) : Prop := forall c, In c (conds r) -> Forall legible (cond_str c).

(** characters of a printed legible rule *)
Definition okc (c : ascii) : Prop := 33 <= nat_of_ascii c <= 126 /\ c <> ch "," /\ c <> squote /\ c <> ascii_of_nat 92.
Lemma repr_okc c : okc c -> repr_char squote c = [c].
Proof.
  intros (R & _ & Q & B). unfold repr_char.
  assert (E1 : Ascii.eqb c squote = false) by (apply Ascii.eqb_neq; auto).
  assert (E2 : nat_of_ascii c =? 92 = false).
  { apply Nat.eqb_neq. intros K. apply B. rewrite <- K. symmetry. apply ascii_nat_embedding. }
  rewrite E1, E2. cbn [orb].
  replace (nat_of_ascii c =? 9) with false by (symmetry; apply Nat.eqb_neq; lia).
  replace (nat_of_ascii c =? 10) with false by (symmetry; apply Nat.eqb_neq; lia).
  replace (nat_of_ascii c =? 13) with false by (symmetry; apply Nat.eqb_neq; lia).
  replace (nat_of_ascii c <? 32) with false by (symmetry; apply Nat.ltb_ge; lia).
  replace (nat_of_ascii c =? 127) with false by (symmetry; apply Nat.eqb_neq; lia). reflexivity.
Qed.
Lemma repr_ok s : Forall okc s -> repr_str s = squote :: s ++ [squote].
Proof.
  intros F. unfold repr_str. assert (has_char squote s = false) as ->.
  { unfold has_char. apply Bool.not_true_iff_false. rewrite existsb_exists. intros (x & I & E). apply Ascii.eqb_eq in E. subst x.
    rewrite Forall_forall in F. apply F in I. unfold okc in I. tauto. }
  cbn [andb]. assert (flat_map (repr_char squote) s = s) as ->; [|reflexivity].
  induction F as [|c s C F IH]; [reflexivity|]. cbn [flat_map]. rewrite repr_okc, IH by auto. reflexivity.
Qed.
Lemma legible_ok s : Forall legible s -> Forall okc s.
Proof. apply Forall_impl. unfold legible, okc. tauto. Qed.
Lemma clean_ok s : Forall okc s -> clean s = s.
Proof.
  intros F. assert (A : sub_char (ch ",") (ch "^") s = s).
  { unfold sub_char. induction F as [|c s C F IH]; [reflexivity|]. cbn [map]. rewrite IH.
    destruct (Ascii.eqb c (ch ",")) eqn:E; [apply Ascii.eqb_eq in E; unfold okc in C; tauto|reflexivity]. }
  unfold clean. rewrite A. unfold del_char. rewrite filter_filter. apply filter_all. intros x I. rewrite Forall_forall in F. apply F in I.
  rewrite Bool.andb_true_iff, !Bool.negb_true_iff, !Ascii.eqb_neq. split.
  - unfold okc in I. tauto.
  - intros ->. destruct I as [R _]. cbn in R. lia.
Qed.
Lemma clean_join_ok l : (forall s, In s l -> Forall okc s) -> clean (join ($", ") (map repr_str l)) = join [ch "^"] l.
Proof.
  induction l as [|s l IH]; intros F; [reflexivity|].
  assert (C1 : clean (repr_str s) = s).
  { rewrite repr_ok by (apply F; left; auto). change (squote :: s ++ [squote]) with ([squote] ++ s ++ [squote]).
    rewrite !clean_app, (clean_ok s) by (apply F; left; auto). change (clean [squote]) with (@nil ascii). rewrite app_nil_r. reflexivity. }
  destruct l as [|s2 l].
  - exact C1.
  - cbn [map]. rewrite (join_cons ($", ")) by discriminate. rewrite (join_cons [ch "^"] s) by discriminate. rewrite !clean_app, C1.
    change (clean ($", ")) with [ch "^"]. rewrite <- IH by (intros x X; apply F; right; auto). reflexivity.
Qed.
Lemma rule_str_legible r : conds r <> [] -> legible_rule r -> rule_str r = ch "[" :: join [ch "^"] (map cond_str (conds r)) ++ [ch "]"].
Proof.
  intros NE F. unfold rule_str. destruct (conds r) as [|c cs] eqn:C; [congruence|]. rewrite <- C in *.
  change (clean (str_of_list (map cond_str (conds r))) = ch "[" :: join [ch "^"] (map cond_str (conds r)) ++ [ch "]"]).
  unfold str_of_list. rewrite !clean_app, clean_join_ok; [reflexivity|]. intros s I. apply in_map_iff in I. destruct I as (d & <- & I). apply legible_ok. auto.
Qed.
(** the replacements of out_pretty, character by character *)
Definition fix_char (x : ascii) : str :=
  if Ascii.eqb x (ch " ") then [] else if Ascii.eqb x (ch ",") then lit " V" ++ [ascii_of_nat 10] else if Ascii.eqb x squote then [] else if Ascii.eqb x (ch "^") then lit " ^ " else [x].
Lemma pretty_chars s : expand_char (ch "^") ($" ^ ") (del_char squote (expand_char (ch ",") ($" V" ++ [ascii_of_nat 10]) (del_char (ch " ") s))) = flat_map fix_char s.
Proof.
  induction s as [|x s IH]; [reflexivity|]. cbn [flat_map]. unfold fix_char. unfold del_char at 2. cbn [filter].
  destruct (Ascii.eqb x (ch " ")) eqn:E1; cbn [negb app]; [exact IH|].
  unfold expand_char at 2. cbn [flat_map]. fold (expand_char (ch ",") ($" V" ++ [ascii_of_nat 10]) (filter (fun x => negb (Ascii.eqb x (ch " "))) s)). fold (del_char (ch " ") s).
  unfold del_char at 1. rewrite filter_app. unfold expand_char at 1. rewrite flat_map_app.
  fold (del_char squote (expand_char (ch ",") ($" V" ++ [ascii_of_nat 10]) (del_char (ch " ") s))).
  fold (expand_char (ch "^") ($" ^ ") (del_char squote (expand_char (ch ",") ($" V" ++ [ascii_of_nat 10]) (del_char (ch " ") s)))). rewrite IH. f_equal.
  destruct (Ascii.eqb x (ch ",")) eqn:E2; [reflexivity|]. cbn [filter]. destruct (Ascii.eqb x squote) eqn:E3; cbn [negb flat_map]; [reflexivity|].
  destruct (Ascii.eqb x (ch "^")); reflexivity.
Qed.
Lemma fix_legible s : Forall legible s -> flat_map fix_char s = s.
Proof.
  induction 1 as [|c s (R & A & B & D & E) F IH]; [reflexivity|]. cbn [flat_map]. rewrite IH. unfold fix_char.
  destruct (Ascii.eqb_spec c (ch " ")) as [->|_]; [cbn in R; lia|]. destruct (Ascii.eqb_spec c (ch ",")); [congruence|]. destruct (Ascii.eqb_spec c squote); [congruence|].
  destruct (Ascii.eqb_spec c (ch "^")); [congruence|]. reflexivity.
Qed.
Lemma fix_join sep l : flat_map fix_char (join sep l) = join (flat_map fix_char sep) (map (flat_map fix_char) l).
Proof.
  induction l as [|s l IH]; [reflexivity|]. destruct l as [|t l]; [reflexivity|]. rewrite join_cons by discriminate. rewrite !flat_map_app, IH.
  change (map (flat_map fix_char) (s :: t :: l)) with (flat_map fix_char s :: map (flat_map fix_char) (t :: l)). rewrite join_cons by discriminate. reflexivity.
Qed.
Lemma rule_str_ok r : legible_rule r -> Forall okc (rule_str r).
Proof.
  intros L. destruct (conds r) as [|c cs] eqn:C.
  - unfold rule_str. rewrite C. repeat constructor; try (cbn; lia); discriminate.
  - rewrite rule_str_legible by (auto; congruence). assert (OB : okc (ch "[")) by (repeat split; try (cbn; lia); discriminate). assert (CB : okc (ch "]")) by (repeat split; try (cbn; lia); discriminate).
    constructor; auto. apply Forall_app. split; [|constructor; auto]. apply Forall_forall. intros x I. apply In_join in I. destruct I as [[<-|[]]|(p & I & J)].
    + repeat split; try (cbn; lia); discriminate.
    + apply in_map_iff in I. destruct I as (d & <- & I). assert (F := L d I). apply legible_ok in F. rewrite Forall_forall in F. auto.
Qed.
Lemma shown_eq r : legible_rule r -> flat_map fix_char (repr_str (rule_str r)) = shown_rule r.
Proof.
  intros L. rewrite repr_ok by (apply rule_str_ok; auto). cbn [flat_map]. rewrite flat_map_app. change (fix_char squote) with (@nil ascii). change (flat_map fix_char [squote]) with (@nil ascii).
  rewrite app_nil_r. cbn [app]. unfold shown_rule. destruct (conds r) as [|c cs] eqn:C.
  - unfold rule_str. rewrite C. reflexivity.
  - rewrite rule_str_legible by (auto; congruence). rewrite <- C. cbn [flat_map]. rewrite flat_map_app, fix_join. change (flat_map fix_char [ch "^"]) with (lit " ^ ").
    rewrite map_map. replace (map (fun x => flat_map fix_char (cond_str x)) (conds r)) with (map cond_str (conds r)); [reflexivity|].
    apply map_ext_in. intros d I. symmetry. apply fix_legible. apply L; auto.
Qed.

(** C69. out_model prints the rules one per line, in order, conditions separated by " ^ " (conditions of legible characters); on an unfitted classifier it says so.
    Partial: other characters, see the refutation. *)
Theorem C69_out_model_partial : forall cl x, c_rs cl = Some x -> (forall r, In r (rs_rules x) -> legible_rule r) -> out_model cl = display (rs_rules x).
Proof.
  intros cl x R L. unfold out_model. rewrite R. unfold rs_pretty. rewrite pretty_chars. unfold str_of_list, display. rewrite !flat_map_app, fix_join, !map_map.
  f_equal. f_equal. f_equal. apply map_ext_in. intros r I. apply shown_eq. auto.
Qed.
Print Assumptions C69_out_model_partial.
(** str(ruleset): the same on one line, without blanks around the carets *)
Definition rule_text (r : rule) : str :=
  match conds r with [] => lit "[True]" | cs => lit "[" ++ join (lit "^") (map cond_str cs) ++ lit "]" end.
Theorem C69_str_partial : forall rs, (forall r, In r rs -> legible_rule r) -> rs_str rs = lit "[" ++ join (lit " V ") (map rule_text rs) ++ lit "]".
Proof.
  intros rs L. unfold rs_str. f_equal. f_equal. f_equal. apply map_ext_in. intros r I. unfold rule_text. destruct (conds r) as [|c cs] eqn:C.
  - unfold rule_str. rewrite C. reflexivity.
  - rewrite rule_str_legible by (auto; congruence). rewrite C. reflexivity.
Qed.
Print Assumptions C69_str_partial.
Example C69_nonvacuous : (forall r, In r [Rule_ [c_ "outlook" "sunny"; c_ "wind" "V[1]"]; Rule_ []] -> legible_rule r) /\
  display [Rule_ [c_ "outlook" "sunny"; c_ "wind" "V[1]"]; Rule_ []] = lit "[[outlook=sunny ^ wind=V[1]] V" ++ [ascii_of_nat 10] ++ lit "[True]]".
Proof.
  split; [|reflexivity]. intros r [<-|[<-|[]]] c I; [|destruct I]. destruct I as [<-|[<-|[]]]; repeat constructor; try (cbn; lia); discriminate.
Qed.
(** REFUTED in general: a comma in a value is shown as a caret (so one condition looks like two), blanks disappear (so two different values look alike) *)
Theorem C69_out_model_refuted :
  rs_pretty [Rule_ [c_ "f" "a,b=c"]] = rs_pretty [Rule_ [c_ "f" "a"; c_ "b" "c"]] /\ rs_pretty [Rule_ [c_ "f" "no good"]] = rs_pretty [Rule_ [c_ "f" "nogood"]].
Proof. split; vm_compute; reflexivity. Qed.
Print Assumptions C69_out_model_refuted.

(** C69, truncstr(limit, direction): with more than [limit] rules it shows exactly the first / last [limit] rules and dots on the other side, otherwise all.
    Partial: direction "right" needs limit > 0. *)
Theorem C69_truncstr_partial : forall rs limit, 
  (length rs <= limit -> forall l r, rs_truncstr (Z.of_nat limit) l r rs = Ok (rs_str rs)) /\
  (limit < length rs -> forall shown rest, rs = shown ++ rest -> length shown = limit -> forall r, rs_truncstr (Z.of_nat limit) true r rs = Ok (rs_str shown ++ lit "...")) /\
  (0 < limit < length rs -> forall rest shown, rs = rest ++ shown -> length shown = limit -> rs_truncstr (Z.of_nat limit) false true rs = Ok (lit "..." ++ rs_str shown)) /\
  (limit < length rs -> rs_truncstr (Z.of_nat limit) false false rs = Err ValueError).
Proof.
  intros rs limit. unfold rs_truncstr, trunc_rules. split; [|split; [|split]].
  - intros L l r. replace (Z.of_nat limit <? Z.of_nat (length rs))%Z with false by (symmetry; apply Z.ltb_ge; lia). reflexivity.
  - intros L shown rest E H r. replace (Z.of_nat limit <? Z.of_nat (length rs))%Z with true by (symmetry; apply Z.ltb_lt; lia). cbn [bind]. f_equal. f_equal. f_equal.
    subst rs. unfold take. rewrite app_length in *. replace (norm_idx (Z.of_nat limit) (length shown + length rest)) with limit.
    + rewrite firstn_app, <- H, Nat.sub_diag, firstn_all. cbn. apply app_nil_r.
    + unfold norm_idx. destruct (Z.ltb_spec (Z.of_nat limit) 0); lia.
  - intros [L0 L] rest shown E H. replace (Z.of_nat limit <? Z.of_nat (length rs))%Z with true by (symmetry; apply Z.ltb_lt; lia). cbn [bind]. f_equal. f_equal. f_equal.
    subst rs. unfold drop. rewrite app_length in *. replace (norm_idx (- Z.of_nat limit) (length rest + length shown)) with (length rest).
    + rewrite skipn_app, Nat.sub_diag, skipn_all. reflexivity.
    + unfold norm_idx. destruct (Z.ltb_spec (- Z.of_nat limit) 0); lia.
  - intros L. replace (Z.of_nat limit <? Z.of_nat (length rs))%Z with true by (symmetry; apply Z.ltb_lt; lia). reflexivity.
Qed.
Print Assumptions C69_truncstr_partial.
Example C69_truncstr_nonvacuous : forall three, three = [Rule_ [c_ "a" "1"]; Rule_ [c_ "b" "2"]; Rule_ [c_ "d" "3"]] ->
  rs_truncstr 2 true false three = Ok (lit "[[a=1] V [b=2]]...") /\ rs_truncstr 2 false true three = Ok (lit "...[[b=2] V [d=3]]") /\
  rs_truncstr 3 true false three = Ok (lit "[[a=1] V [b=2] V [d=3]]").
Proof. intros three ->. repeat split; reflexivity. Qed.
(** REFUTED for limit 0 from the right: all rules are shown *)
Theorem C69_truncstr_zero_refuted : rs_truncstr 0 false true [Rule_ [c_ "a" "1"]; Rule_ [c_ "b" "2"]] = Ok (lit "...[[a=1] V [b=2]]").
Proof. reflexivity. Qed.
Print Assumptions C69_truncstr_zero_refuted.
