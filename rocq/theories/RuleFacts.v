(** * RuleFacts.v : equality, hashing, editing, duplicates, trimming *)
From Verif Require Export CoverFacts.

(** ** C08 *)
Lemma subset_strs_incl a b : subset_strs a b = true <-> incl a b.
Proof. unfold subset_strs. rewrite forallb_forall. split; intros H s Hs; [apply str_in_In|apply str_in_In]; auto. Qed.
Lemma rule_eqb_iff a b : rule_eqb a b = true <->
  length (conds a) = length (conds b) /\ incl (cond_strs a) (cond_strs b) /\ incl (cond_strs b) (cond_strs a).
Proof. unfold rule_eqb. rewrite !andb_true_iff, Nat.eqb_eq, !subset_strs_incl. tauto. Qed.
Lemma rule_eqb_refl a : rule_eqb a a = true.
Proof. apply rule_eqb_iff. auto using incl_refl. Qed.
Lemma rule_eqb_sym a b : rule_eqb a b = rule_eqb b a.
Proof. apply eq_true_iff_eq. rewrite !rule_eqb_iff. intuition. Qed.
Lemma rule_eqb_trans a b c : rule_eqb a b = true -> rule_eqb b c = true -> rule_eqb a c = true.
Proof. rewrite !rule_eqb_iff. intros (L1 & A1 & B1) (L2 & A2 & B2). repeat split; try congruence; eapply incl_tran; eauto. Qed.
Lemma rule_eqb_perm a b : Permutation (conds a) (conds b) -> rule_eqb a b = true.
Proof.
  intros P. apply rule_eqb_iff. split; [apply Permutation_length; auto|]. unfold cond_strs.
  split; intros s Hs; eapply Permutation_in; try eassumption; apply Permutation_map; auto. symmetry; auto.
Qed.
Lemma rule_in_iff r l : rule_in r l = true <-> exists x, In x l /\ rule_eqb x r = true.
Proof. unfold rule_in. apply existsb_exists. Qed.
Lemma rs_eqb_iff a b : rs_eqb a b = true <->
  (forall r, In r a -> exists x, In x b /\ rule_eqb x r = true) /\ (forall r, In r b -> exists x, In x a /\ rule_eqb x r = true).
Proof.
  unfold rs_eqb. rewrite andb_true_iff, !forallb_forall. split; intros [H1 H2]; split; intros r Hr; apply rule_in_iff; auto.
Qed.
Lemma rs_eqb_refl a : rs_eqb a a = true.
Proof. apply rs_eqb_iff. split; intros r Hr; exists r; auto using rule_eqb_refl. Qed.
Lemma rs_eqb_sym a b : rs_eqb a b = rs_eqb b a.
Proof. apply eq_true_iff_eq. rewrite !rs_eqb_iff. tauto. Qed.
Lemma rs_eqb_trans a b c : rs_eqb a b = true -> rs_eqb b c = true -> rs_eqb a c = true.
Proof.
  rewrite !rs_eqb_iff. intros [A1 A2] [B1 B2]. split; intros r Hr.
  - destruct (A1 r Hr) as (x & Hx & Ex). destruct (B1 x Hx) as (y & Hy & Ey). exists y; split; auto. eapply rule_eqb_trans; eauto.
  - destruct (B2 r Hr) as (x & Hx & Ex). destruct (A2 x Hx) as (y & Hy & Ey). exists y; split; auto. eapply rule_eqb_trans; eauto.
Qed.
Lemma rs_eqb_incl a b : incl a b -> incl b a -> rs_eqb a b = true.
Proof. intros H H'. apply rs_eqb_iff. split; intros r Hr; exists r; auto using rule_eqb_refl. Qed.

(** ** C09 *)
Lemma str_leb_total a b : str_leb a b = true \/ str_leb b a = true.
Proof.
  revert b; induction a as [|x a IH]; intros [|y b]; cbn; auto.
  rewrite (Ascii.eqb_sym y x). destruct (Ascii.eqb x y) eqn:E; auto.
  destruct (Nat.lt_total (nat_of_ascii x) (nat_of_ascii y)) as [H|[H|H]].
  - left. apply Nat.ltb_lt; auto.
  - exfalso. apply Ascii.eqb_neq in E. apply E. rewrite <- (ascii_nat_embedding x), <- (ascii_nat_embedding y), H; auto.
  - right. apply Nat.ltb_lt; auto.
Qed.
Lemma str_leb_antisym a b : str_leb a b = true -> str_leb b a = true -> a = b.
Proof.
  revert b; induction a as [|x a IH]; intros [|y b]; cbn; try congruence.
  rewrite (Ascii.eqb_sym y x). destruct (Ascii.eqb x y) eqn:E.
  - apply Ascii.eqb_eq in E; subst. intros; f_equal; auto.
  - rewrite !Nat.ltb_lt; lia.
Qed.
Lemma str_leb_trans a b c : str_leb a b = true -> str_leb b c = true -> str_leb a c = true.
Proof.
  revert b c; induction a as [|x a IH]; intros [|y b] [|z c]; cbn; try congruence.
  destruct (Ascii.eqb x y) eqn:E1, (Ascii.eqb y z) eqn:E2.
  - apply Ascii.eqb_eq in E1, E2; subst. rewrite Ascii.eqb_refl; eauto.
  - apply Ascii.eqb_eq in E1; subst. rewrite E2; auto.
  - apply Ascii.eqb_eq in E2; subst. rewrite E1; auto.
  - intros H1 H2. apply Nat.ltb_lt in H1, H2. destruct (Ascii.eqb x z) eqn:E3.
    + apply Ascii.eqb_eq in E3; subst; lia.
    + apply Nat.ltb_lt; lia.
Qed.
Lemma str_leb_refl a : str_leb a a = true.
Proof. destruct (str_leb_total a a); auto. Qed.
Lemma insert_comm x y l : insert_str x (insert_str y l) = insert_str y (insert_str x l).
Proof.
  induction l as [|z l IH]; cbn.
  - destruct (str_leb x y) eqn:E1, (str_leb y x) eqn:E2; auto.
    + rewrite (str_leb_antisym x y); auto.
    + destruct (str_leb_total x y); congruence.
  - destruct (str_leb y z) eqn:Eyz, (str_leb x z) eqn:Exz; cbn; rewrite ?Eyz, ?Exz.
    + destruct (str_leb x y) eqn:E1, (str_leb y x) eqn:E2; auto.
      * rewrite (str_leb_antisym x y); auto.
      * destruct (str_leb_total x y); congruence.
    + destruct (str_leb x y) eqn:E1; auto. exfalso. assert (str_leb x z = true) by (eapply str_leb_trans; eauto). congruence.
    + destruct (str_leb y x) eqn:E1; auto. exfalso. assert (str_leb y z = true) by (eapply str_leb_trans; eauto). congruence.
    + rewrite IH; auto.
Qed.
Lemma sort_perm l l' : Permutation l l' -> sort_strs l = sort_strs l'.
Proof. unfold sort_strs. induction 1; cbn; auto; [rewrite IHPermutation; auto|apply insert_comm|congruence]. Qed.
Lemma hash_of_equal H r1 r2 : rule_eqb r1 r2 = true -> NoDup (cond_strs r1) -> NoDup (cond_strs r2) ->
  rule_hash H r1 = rule_hash H r2.
Proof.
  rewrite rule_eqb_iff. intros (L & A & B) N1 N2. unfold rule_hash. f_equal. apply sort_perm.
  apply NoDup_Permutation; auto. intros s; split; auto.
Qed.
Lemma hash_of_permuted H r1 r2 : Permutation (conds r1) (conds r2) -> rule_hash H r1 = rule_hash H r2.
Proof. intros P. unfold rule_hash. f_equal. apply sort_perm. unfold cond_strs. apply Permutation_map; auto. Qed.

(** ** C10 *)
Lemma col_pos_py_eq cols f g : py_eq f g = true -> col_pos cols f = col_pos cols g.
Proof. intros E. induction cols as [|c cols IH]; cbn; auto. rewrite (py_eq_rewrite_r f g c), IH; auto. Qed.
Lemma cell_eq_py_eq cols f g v w rw : py_eq f g = true -> py_eq v w = true -> cell_eq cols f v rw = cell_eq cols g w rw.
Proof.
  intros E E'. unfold cell_eq, cell. rewrite (col_pos_py_eq cols f g) by auto. destruct (col_pos cols g); auto.
  destruct (nth_error _ _); auto. apply py_eq_rewrite_r; auto.
Qed.
Lemma has_col_py_eq fr f g : py_eq f g = true -> has_col fr f = has_col fr g.
Proof. intros E. unfold has_col. apply existsb_ext_in. intros; apply py_eq_rewrite_r; auto. Qed.
Lemma forallb_transfer (cs ds : list cond) (p : cond -> bool) :
  (forall c, In c cs -> exists d, In d ds /\ p d = p c) -> forallb p ds = true -> forallb p cs = true.
Proof. rewrite !forallb_forall. intros H G c Hc. destruct (H c Hc) as (d & Hd & E). rewrite <- E; auto. Qed.
Lemma equal_rules_twins r1 r2 : rule_eqb r1 r2 = true -> str_faithful (conds r1) (conds r2) ->
  (forall c, In c (conds r1) -> exists d, In d (conds r2) /\ py_eq (cfeat c) (cfeat d) = true /\ py_eq (cval c) (cval d) = true) /\
  (forall d, In d (conds r2) -> exists c, In c (conds r1) /\ py_eq (cfeat c) (cfeat d) = true /\ py_eq (cval c) (cval d) = true).
Proof.
  rewrite rule_eqb_iff. intros (_ & A & B) F. split.
  - intros c Hc. assert (In (cond_str c) (cond_strs r2)) as Hs by (apply A, in_map; auto).
    apply in_map_iff in Hs. destruct Hs as (d & E & Hd). exists d; split; auto.
  - intros d Hd. assert (In (cond_str d) (cond_strs r1)) as Hs by (apply B, in_map; auto).
    apply in_map_iff in Hs. destruct Hs as (c & E & Hc). exists c; split; auto.
Qed.
Lemma equal_rules_same fr r1 r2 : rule_eqb r1 r2 = true -> str_faithful (conds r1) (conds r2) ->
  conds_present fr (conds r1) = conds_present fr (conds r2) /\
  forall rw, conds_sat (fcols fr) (conds r1) rw = conds_sat (fcols fr) (conds r2) rw.
Proof.
  intros E F. destruct (equal_rules_twins _ _ E F) as [T1 T2].
  split; [|intros rw]; apply eq_true_iff_eq; split; apply forallb_transfer.
  - intros d Hd. destruct (T2 d Hd) as (c & Hc & E1 & E2). exists c; split; auto. apply has_col_py_eq; auto.
  - intros c Hc. destruct (T1 c Hc) as (d & Hd & E1 & E2). exists d; split; auto. symmetry; apply has_col_py_eq; auto.
  - intros d Hd. destruct (T2 d Hd) as (c & Hc & E1 & E2). exists c; split; auto. apply cell_eq_py_eq; auto.
  - intros c Hc. destruct (T1 c Hc) as (d & Hd & E1 & E2). exists d; split; auto. symmetry; apply cell_eq_py_eq; auto.
Qed.
Lemma equal_rules_cover_same r1 r2 fr : rule_eqb r1 r2 = true -> str_faithful (conds r1) (conds r2) ->
  rule_covers r1 fr = rule_covers r2 fr.
Proof.
  intros E F. destruct (equal_rules_same fr _ _ E F) as [P S]. rewrite !rule_covers_eq, P.
  destruct (conds_present fr (conds r2)); auto. do 2 f_equal. apply filter_ext; auto.
Qed.
Lemma equal_rules_empty r1 r2 : rule_eqb r1 r2 = true -> rule_isempty r1 = rule_isempty r2.
Proof. rewrite rule_eqb_iff. intros (L & _). unfold rule_isempty. destruct (conds r1), (conds r2); auto; discriminate. Qed.

(** rulesets whose rules match pairwise (both directions) with the same semantics predict the same *)
Definition rules_match (fr : frame) (r1 r2 : rule) : Prop :=
  rule_isempty r1 = rule_isempty r2 /\ conds_present fr (conds r1) = conds_present fr (conds r2) /\
  forall rw, conds_sat (fcols fr) (conds r1) rw = conds_sat (fcols fr) (conds r2) rw.
Lemma predict_matching rs1 rs2 fr :
  (forall r, In r rs1 -> exists x, In x rs2 /\ rules_match fr r x) ->
  (forall r, In r rs2 -> exists x, In x rs1 /\ rules_match fr x r) ->
  rs_predict rs1 fr = rs_predict rs2 fr.
Proof.
  intros H1 H2. rewrite !rs_predict_eq.
  assert (rs_isuniversal rs1 = rs_isuniversal rs2) as ->.
  { unfold rs_isuniversal. apply eq_true_iff_eq. rewrite !existsb_exists. split; intros (r & Hr & E).
    - destruct (H1 r Hr) as (x & Hx & M & _). exists x; split; auto. congruence.
    - destruct (H2 r Hr) as (x & Hx & M & _). exists x; split; auto. congruence. }
  assert (all_present fr rs1 = all_present fr rs2) as ->.
  { unfold all_present. apply eq_true_iff_eq. rewrite !forallb_forall. split; intros G r Hr.
    - destruct (H2 r Hr) as (x & Hx & _ & M & _). rewrite <- M; auto.
    - destruct (H1 r Hr) as (x & Hx & _ & M & _). rewrite M; auto. }
  assert (forall rw, sat_any (fcols fr) rs1 rw = sat_any (fcols fr) rs2 rw) as S.
  { intros rw. unfold sat_any. apply eq_true_iff_eq. rewrite !existsb_exists. split; intros (r & Hr & E).
    - destruct (H1 r Hr) as (x & Hx & _ & _ & M). exists x; split; auto. rewrite <- M; auto.
    - destruct (H2 r Hr) as (x & Hx & _ & _ & M). exists x; split; auto. rewrite M; auto. }
  destruct (_ || _); auto. f_equal. apply map_ext. intros rw. apply existsb_ext_in. intros x _. rewrite S; auto.
Qed.
Lemma faithful_sub rs1 rs2 r1 r2 : str_faithful (all_conds rs1) (all_conds rs2) -> In r1 rs1 -> In r2 rs2 -> str_faithful (conds r1) (conds r2).
Proof. intros F H1 H2 c d Hc Hd. apply F; apply in_flat_map; eauto. Qed.
Lemma equal_rulesets_predict_same rs1 rs2 fr : rs_eqb rs1 rs2 = true -> str_faithful (all_conds rs1) (all_conds rs2) ->
  rs_predict rs1 fr = rs_predict rs2 fr.
Proof.
  rewrite rs_eqb_iff. intros [H1 H2] F. apply predict_matching; intros r Hr.
  - destruct (H1 r Hr) as (x & Hx & E). exists x; split; auto. rewrite rule_eqb_sym in E.
    destruct (equal_rules_same fr r x E (faithful_sub _ _ _ _ F Hr Hx)). split; auto. apply equal_rules_empty; auto.
  - destruct (H2 r Hr) as (x & Hx & E). exists x; split; auto.
    destruct (equal_rules_same fr x r E (faithful_sub _ _ _ _ F Hx Hr)). split; auto. apply equal_rules_empty; auto.
Qed.
Lemma app_sep_inj (x : ascii) a b c d : ~ In x a -> ~ In x c -> a ++ x :: b = c ++ x :: d -> a = c /\ b = d.
Proof.
  revert c; induction a as [|y a IH]; intros [|z c] Ha Hc E; cbn in *.
  - injection E as ->; auto.
  - injection E as -> _. tauto.
  - injection E as -> _. tauto.
  - injection E as -> E. destruct (IH c) as [-> ->]; auto.
Qed.
Lemma plain_faithful cs ds : (forall c, In c cs -> plain_cond c) -> (forall d, In d ds -> plain_cond d) -> str_faithful cs ds.
Proof.
  intros H1 H2 c d Hc Hd E. destruct (H1 c Hc) as (f & v & F1 & V1 & N1). destruct (H2 d Hd) as (g & w & F2 & V2 & N2).
  unfold cond_str in E. rewrite F1, V1, F2, V2 in *. cbn [py_str] in E. cbn [lit String.list_ascii_of_string app] in E.
  apply app_sep_inj in E; auto. destruct E; subst. rewrite !py_eq_refl by congruence; auto.
Qed.

(** ** C13 *)
Lemma check_index_ok i rs n : check_index i rs = Ok n <-> (0 <= i < Z.of_nat (length rs))%Z /\ n = Z.to_nat i.
Proof.
  unfold check_index. destruct ((i <? 0)%Z) eqn:E1, ((Z.of_nat (length rs) <=? i)%Z) eqn:E2; cbn;
  rewrite ?Z.ltb_lt, ?Z.ltb_ge, ?Z.leb_le, ?Z.leb_gt in *; split; try (intros [? ?]; lia); try discriminate.
  - intros [= <-]. split; auto; lia.
  - intros [_ ->]; auto.
Qed.
Lemma check_index_err i rs : ~ (0 <= i < Z.of_nat (length rs))%Z -> check_index i rs = Err IndexError.
Proof. intros H. unfold check_index. destruct (_ || _) eqn:E; auto. exfalso. apply orb_false_iff in E. rewrite Z.ltb_ge, Z.leb_gt in E. lia. Qed.
Lemma remove_nth_app {A} (a : list A) x b : remove_nth (length a) (a ++ x :: b) = a ++ b.
Proof. induction a; cbn; f_equal; auto. Qed.
Lemma set_nth_app {A} (a : list A) x y b : set_nth (length a) y (a ++ x :: b) = a ++ y :: b.
Proof. induction a; cbn; f_equal; auto. Qed.
Lemma split_at {A} (l : list A) n : n < length l -> exists a x b, l = a ++ x :: b /\ length a = n.
Proof.
  revert n; induction l as [|y l IH]; cbn; intros n H; [lia|]. destruct n as [|n]; [exists [], y, l; auto|].
  destruct (IH n) as (a & x & b & -> & <-); [lia|]. exists (y :: a), x, b; auto.
Qed.

Lemma remove_at_spec i rs :
  (forall a x b, at_pos i rs a x b -> rs_remove i rs = Ok (a ++ b)) /\
  ((i < 0 \/ Z.of_nat (length rs) <= i)%Z -> rs_remove i rs = Err IndexError).
Proof.
  split.
  - intros a x b [-> <-]. unfold rs_remove.
    assert (check_index (Z.of_nat (length a)) (a ++ x :: b) = Ok (length a)) as ->.
    { apply check_index_ok. rewrite app_length; cbn. lia. }
    cbn. rewrite remove_nth_app; auto.
  - intros H. unfold rs_remove. rewrite check_index_err; auto. lia.
Qed.
Lemma insert_at_spec i r rs :
  (forall a x b, at_pos i rs a x b -> rs_insert i r rs = Ok (a ++ r :: x :: b)) /\
  ((i < 0 \/ Z.of_nat (length rs) <= i)%Z -> rs_insert i r rs = Err IndexError).
Proof.
  split.
  - intros a x b [-> <-]. unfold rs_insert.
    assert (check_index (Z.of_nat (length a)) (a ++ x :: b) = Ok (length a)) as ->.
    { apply check_index_ok. rewrite app_length; cbn. lia. }
    cbn. rewrite firstn_app, skipn_app, firstn_all, skipn_all, Nat.sub_diag; cbn. rewrite app_nil_r; auto.
  - intros H. unfold rs_insert. rewrite check_index_err; auto. lia.
Qed.
Lemma replace_at_spec i r rs :
  (forall a x b, at_pos i rs a x b -> rs_replace i r rs = Ok (a ++ r :: b)) /\
  ((i < 0 \/ Z.of_nat (length rs) <= i)%Z -> rs_replace i r rs = Err IndexError).
Proof.
  split.
  - intros a x b [-> <-]. unfold rs_replace.
    assert (check_index (Z.of_nat (length a)) (a ++ x :: b) = Ok (length a)) as ->.
    { apply check_index_ok. rewrite app_length; cbn. lia. }
    cbn. rewrite set_nth_app; auto.
  - intros H. unfold rs_replace. rewrite check_index_err; auto. lia.
Qed.
Lemma at_pos_exists i rs : (0 <= i < Z.of_nat (length rs))%Z -> exists a x b, at_pos i rs a x b.
Proof.
  intros H. destruct (split_at rs (Z.to_nat i)) as (a & x & b & E & L); [lia|]. exists a, x, b. split; auto. lia.
Qed.
Lemma index_of_first old rs a x b : first_equal old rs a x b -> index_of old rs = Some (length a).
Proof.
  intros (-> & E & H). induction a as [|y a IH]; cbn; [rewrite E; auto|].
  rewrite H by (cbn; auto). rewrite IH; auto. intros; apply H; cbn; auto.
Qed.
Lemma index_of_none old rs : (forall y, In y rs -> rule_eqb y old = false) -> index_of old rs = None.
Proof. induction rs as [|y rs IH]; cbn; intros H; auto. rewrite H, IH; auto. Qed.
Lemma first_equal_cases old rs : (exists a x b, first_equal old rs a x b) \/ (forall y, In y rs -> rule_eqb y old = false).
Proof.
  induction rs as [|y rs IH]; [right; contradiction|]. destruct (rule_eqb y old) eqn:E.
  - left. exists [], y, rs. split; auto. split; auto. contradiction.
  - destruct IH as [(a & x & b & -> & Ex & H)|H].
    + left. exists (y :: a), x, b. split; auto. split; auto. intros z [<-|Hz]; auto.
    + right. intros z [<-|Hz]; auto.
Qed.
Lemma find_rule_first old rs a x b : first_equal old rs a x b -> find_rule old rs = Ok (length a).
Proof. intros H. unfold find_rule. erewrite index_of_first; eauto. Qed.
Lemma by_value_spec old r rs :
  (forall a x b, first_equal old rs a x b ->
     rs_remove_rule old rs = Ok (a ++ b) /\ rs_insert_rule old r rs = Ok (a ++ r :: x :: b) /\ rs_replace_rule old r rs = Ok (a ++ r :: b)) /\
  ((forall y, In y rs -> rule_eqb y old = false) ->
     rs_remove_rule old rs = Err ValueError /\ rs_insert_rule old r rs = Err ValueError /\ rs_replace_rule old r rs = Err ValueError).
Proof.
  split.
  - intros a x b H. assert (P : at_pos (Z.of_nat (length a)) rs a x b) by (split; [apply H|auto]).
    unfold rs_remove_rule, rs_insert_rule, rs_replace_rule. rewrite (find_rule_first _ _ _ _ _ H). cbn [bind].
    split; [|split]; [eapply remove_at_spec|eapply insert_at_spec|eapply replace_at_spec]; eauto.
  - intros H. unfold rs_remove_rule, rs_insert_rule, rs_replace_rule, find_rule. rewrite index_of_none; auto.
Qed.

(** ** C14 *)
Definition same_key (H : list str -> Z) (x r : rule) : Prop := rule_hash H x = rule_hash H r /\ rule_eqb x r = true.
Lemma in_set_iff H seen r : in_set H seen r = true <-> exists x, In x seen /\ same_key H x r.
Proof.
  unfold in_set, same_key. rewrite existsb_exists. split; intros (x & Hx & E); exists x; split; auto;
  rewrite andb_true_iff, Z.eqb_eq in *; auto.
Qed.
Lemma same_key_trans H a b c : same_key H a b -> same_key H b c -> same_key H a c.
Proof. intros [] []; split; [congruence|eapply rule_eqb_trans; eauto]. Qed.
Lemma same_key_sym H a b : same_key H a b -> same_key H b a.
Proof. intros []; split; [congruence|rewrite rule_eqb_sym; auto]. Qed.
Lemma same_key_refl H a : same_key H a a.
Proof. split; auto using rule_eqb_refl. Qed.
Lemma remove_dups_first H enc seen l :
  (forall r, (exists x, In x enc /\ same_key H x r) <-> (exists x, In x seen /\ same_key H x r)) ->
  first_occurrences (same_key H) seen l (remove_dups_from H enc l).
Proof.
  revert enc seen; induction l as [|r l IH]; cbn; intros enc seen I; [constructor|].
  destruct (in_set H enc r) eqn:E.
  - apply in_set_iff in E. apply I in E. apply fo_skip; auto. apply IH. intros q. rewrite I. split.
    + intros (x & Hx & K). exists x. rewrite in_app_iff; auto.
    + intros (x & Hx & K). rewrite in_app_iff in Hx. destruct Hx as [Hx|[<-|[]]]; [eauto|].
      destruct E as (y & Hy & Ky). exists y; split; auto. eapply same_key_trans; eauto.
  - apply fo_keep.
    + intros x Hx K. assert (in_set H enc r = true); [|congruence]. apply in_set_iff. apply I. eauto.
    + apply IH. intros q. split; intros (x & Hx & K); rewrite in_app_iff in Hx; destruct Hx as [Hx|[<-|[]]].
      * destruct (proj1 (I q)) as (y & Hy & Ky); eauto. exists y; rewrite in_app_iff; auto.
      * exists r; rewrite in_app_iff; cbn; auto.
      * destruct (proj2 (I q)) as (y & Hy & Ky); eauto. exists y; rewrite in_app_iff; auto.
      * exists r; rewrite in_app_iff; cbn; auto.
Qed.
Lemma remove_duplicates_first H l : first_occurrences (same_key H) [] l (remove_duplicates H l).
Proof. apply remove_dups_first. tauto. Qed.
Lemma first_occ_facts {A} (E : A -> A -> Prop) (Er : forall a, E a a) (Et : forall a b c, E a b -> E b c -> E a c) seen l l' :
  first_occurrences E seen l l' ->
  sublist l' l /\
  (forall a, In a l -> (exists x, In x seen /\ E x a) \/ exists x, In x l' /\ E x a) /\
  (forall p a q, l' = p ++ a :: q -> forall x, In x (seen ++ p) -> ~ E x a).
Proof.
  induction 1 as [seen|seen a l l' Hn H (S & C & N)|seen a l l' Hy H (S & C & N)].
  - split; [constructor|]. split; [contradiction|]. intros [|? ?]; discriminate.
  - split; [constructor; auto|]. split.
    + intros b [<-|Hb]; [right; exists a; cbn; auto|]. destruct (C b Hb) as [(x & Hx & K)|(x & Hx & K)].
      * rewrite in_app_iff in Hx. destruct Hx as [Hx|[<-|[]]]; [eauto|]. right; exists a; cbn; auto.
      * right; exists x; cbn; auto.
    + intros [|p0 p] b q Eq x Hx; cbn in Eq; injection Eq as -> Eq.
      * rewrite app_nil_r in Hx. auto.
      * apply (N p b q Eq). rewrite !in_app_iff in *. cbn in *. tauto.
  - split; [constructor; auto|]. split.
    + intros b [<-|Hb]; [left; auto|]. destruct (C b Hb) as [(x & Hx & K)|(x & Hx & K)]; [|eauto].
      rewrite in_app_iff in Hx. destruct Hx as [Hx|[<-|[]]]; [eauto|]. left. destruct Hy as (y & Hy & Ky). eauto.
    + intros p b q Eq x Hx. apply (N p b q Eq). rewrite !in_app_iff in *. tauto.
Qed.
Lemma remove_duplicates_facts H l :
  sublist (remove_duplicates H l) l /\
  (forall r, In r l -> exists x, In x (remove_duplicates H l) /\ rule_eqb x r = true) /\
  (forall p r q, remove_duplicates H l = p ++ r :: q -> forall x, In x p -> ~ (rule_hash H x = rule_hash H r /\ rule_eqb x r = true)).
Proof.
  destruct (first_occ_facts _ (same_key_refl H) (same_key_trans H) _ _ _ (remove_duplicates_first H l)) as (S & C & N).
  split; auto. split.
  - intros r Hr. destruct (C r Hr) as [(x & [] & _)|(x & Hx & _ & E)]. eauto.
  - intros p r q E x Hx K. apply (N p r q E x); auto.
Qed.
Lemma remove_duplicates_predict H rs fr :
  (forall x r, In x rs -> In r rs -> rule_eqb x r = true -> forall fr', rule_covers x fr' = rule_covers r fr') ->
  good_frame fr -> features_present fr rs ->
  rs_predict (remove_duplicates H rs) fr = rs_predict rs fr.
Proof.
  intros HE [W D] P. destruct (remove_duplicates_facts H rs) as (S & C & _).
  assert (PA : forall r, In r rs -> conds_present fr (conds r) = true) by (intros; eapply present_conds; eauto).
  assert (M : forall x r, In x rs -> In r rs -> rule_eqb x r = true -> rules_match fr x r).
  { intros x r Hx Hr E. split; [apply equal_rules_empty; auto|]. split; [rewrite !PA; auto|].
    intros rw. assert (G := HE x r Hx Hr E (with_rows fr [rw])). rewrite !rule_covers_eq in G.
    change (conds_present (with_rows fr [rw]) (conds x)) with (conds_present fr (conds x)) in G.
    change (conds_present (with_rows fr [rw]) (conds r)) with (conds_present fr (conds r)) in G.
    rewrite !PA in G by auto. injection G as G. cbn [filter frows fcols with_rows] in G.
    destruct (conds_sat (fcols fr) (conds x) rw), (conds_sat (fcols fr) (conds r) rw); auto; discriminate. }
  apply predict_matching; intros r Hr.
  - assert (In r rs) by (eapply sublist_In; eauto). exists r; split; auto. apply M; auto using rule_eqb_refl.
  - destruct (C r Hr) as (x & Hx & E). exists x; split; auto. apply M; auto. eapply sublist_In; eauto.
Qed.

(** ** C15 *)
Lemma trim_rev_spec m l : (exists p, l = p ++ trim_rev m l) /\
  ((0 <= m)%Z -> (Z.of_nat (count_conds (trim_rev m l)) <= m)%Z) /\
  (forall p q, l = p ++ q -> (Z.of_nat (count_conds q) <= m)%Z -> length q <= length (trim_rev m l)).
Proof.
  induction l as [|r l ((p & IH1) & IH2 & IH3)]; cbn [trim_rev].
  - split; [exists []; auto|]. split; [cbn; lia|]. intros p q E. symmetry in E. apply app_eq_nil in E. destruct E as [-> ->]; auto.
  - destruct (Z.ltb_spec m (Z.of_nat (count_conds (r :: l)))).
    + split; [exists (r :: p); cbn; congruence|]. split; auto. intros [|x p'] q E Hq; cbn in E; [subst; lia|].
      injection E as -> E. eauto.
    + split; [exists []; auto|]. split; [lia|]. intros p' q E _. rewrite E, app_length. lia.
Qed.
Lemma trim_conds_spec m rs : (0 <= m)%Z ->
  prefix (trim_conds (Some m) rs) rs /\ (Z.of_nat (count_conds (trim_conds (Some m) rs)) <= m)%Z /\
  (forall p, prefix p rs -> (Z.of_nat (count_conds p) <= m)%Z -> length p <= length (trim_conds (Some m) rs)).
Proof.
  intros Hm. unfold trim_conds. destruct (trim_rev_spec m (rev rs)) as ((p & E) & C & L). split; [|split].
  - exists (rev p). rewrite <- rev_app_distr, <- E, rev_involutive; auto.
  - rewrite count_conds_rev; auto.
  - intros q (s & Eq) Hc. rewrite rev_length. rewrite <- (rev_length q). apply (L (rev s)).
    + rewrite Eq, rev_app_distr; auto.
    + rewrite count_conds_rev; auto.
Qed.
Lemma trim_none rs : trim_conds None rs = rs.
Proof. reflexivity. Qed.
Lemma trim_conds_prefix m rs : prefix (trim_conds m rs) rs.
Proof.
  destruct m as [m|]; [|apply prefix_refl]. unfold trim_conds. destruct (trim_rev_spec m (rev rs)) as ((p & E) & _).
  exists (rev p). rewrite <- rev_app_distr, <- E, rev_involutive; auto.
Qed.
