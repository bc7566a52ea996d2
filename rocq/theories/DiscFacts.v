(** * DiscFacts.v : bins (C48-C51) *)
From Verif Require Export DiscSpec TextFacts MetricsFacts.
From Coq Require Import DecimalN DecimalPos Lqa.
Open Scope nat_scope.

(** ** decimal text *)
Lemma firstn_In {A} n (l : list A) x : In x (firstn n l) -> In x l.
Proof. intros H. rewrite <- (firstn_skipn n l). apply in_or_app; auto. Qed.
Lemma skipn_In {A} n (l : list A) x : In x (skipn n l) -> In x l.
Proof. intros H. rewrite <- (firstn_skipn n l). apply in_or_app; auto. Qed.
Definition digit_char (c : ascii) : Prop := 48 <= nat_of_ascii c <= 57.
Lemma digits_acc d p : digits_val (Npos p) (uint_str d) = Some (Npos (Pos.of_uint_acc d p)).
Proof.
  revert p; induction d as [|d IH|d IH|d IH|d IH|d IH|d IH|d IH|d IH|d IH|d IH]; intros p; [reflexivity|..];
  cbn [uint_str digits_val Pos.of_uint_acc];
  match goal with |- context [digit_val ?c] => let v := eval vm_compute in (digit_val c) in change (digit_val c) with v end; cbv iota;
  match goal with |- context [digits_val ?e _] => match goal with |- _ = Some (Npos (Pos.of_uint_acc _ ?q)) => replace e with (Npos q) by lia end end;
  apply IH.
Qed.
Lemma digits_uint d : digits_val 0 (uint_str d) = Some (Pos.of_uint d).
Proof.
  induction d as [|d IH|d IH|d IH|d IH|d IH|d IH|d IH|d IH|d IH|d IH]; [reflexivity|..]; cbn [uint_str digits_val Pos.of_uint];
  match goal with |- context [digit_val ?c] => let v := eval vm_compute in (digit_val c) in change (digit_val c) with v end; cbv iota;
  match goal with |- context [digits_val ?e _] => let v := eval vm_compute in e in change e with v end; [apply IH|apply digits_acc..].
Qed.
Lemma n_str_val n : digits_val 0 (n_str n) = Some n.
Proof. unfold n_str. rewrite digits_uint. f_equal. apply (DecimalN.Unsigned.of_to n). Qed.
Lemma n_str_digits n : Forall digit_char (n_str n).
Proof.
  unfold n_str. induction (N.to_uint n); cbn [uint_str]; constructor; auto; unfold digit_char; vm_compute; split; repeat constructor.
Qed.
Lemma n_str_ne n : n_str n <> [].
Proof.
  unfold n_str. assert (N.to_uint n <> Decimal.Nil).
  { destruct n; cbn; [discriminate|]. apply DecimalPos.Unsigned.to_uint_nonnil. }
  destruct (N.to_uint n); cbn [uint_str]; congruence.
Qed.
Lemma pad0_digits len s : Forall digit_char s -> Forall digit_char (pad0 len s).
Proof.
  intros H. unfold pad0. apply Forall_app; split; auto. apply Forall_forall. intros x Hx. apply repeat_spec in Hx. subst.
  unfold digit_char; vm_compute; split; repeat constructor.
Qed.
Lemma pad0_val len s : digits_val 0 (pad0 len s) = digits_val 0 s.
Proof. unfold pad0. induction (len - length s) as [|j IH]; cbn [repeat app]; auto. Qed.
Lemma pad0_len len s : len <= length (pad0 len s) /\ length s <= length (pad0 len s).
Proof. unfold pad0. rewrite app_length, repeat_length. lia. Qed.

(** characters of printed numbers *)
Definition num_char (c : ascii) : Prop :=
  digit_char c \/ c = ch "." \/ c = ch "-" \/ c = ch "+" \/ c = ch "e" \/ c = ch "i" \/ c = ch "n" \/ c = ch "f".
Lemma digit_num c : digit_char c -> num_char c. Proof. left; auto. Qed.
Lemma digit_not c d : digit_char c -> ~ digit_char d -> c <> d.
Proof. intros H N ->; auto. Qed.
Lemma num_char_not c d : num_char c -> ~ digit_char d ->
  ~ In d [ch "."; ch "-"; ch "+"; ch "e"; ch "i"; ch "n"; ch "f"] -> c <> d.
Proof. intros H N M ->. cbn [In] in M. unfold num_char in H. intuition congruence. Qed.
Lemma num_char_ws c : num_char c -> is_ws c = false.
Proof.
  intros [H|H]; [|intuition; subst; reflexivity]. unfold digit_char in H. unfold is_ws.
  apply Bool.orb_false_iff. split; apply Bool.andb_false_iff; right; apply Nat.leb_gt; lia.
Qed.
Lemma num_char_lower c : num_char c -> lower c = c.
Proof.
  intros [H|H]; [|intuition; subst; reflexivity]. unfold digit_char in H. unfold lower.
  assert (65 <=? nat_of_ascii c = false) as -> by (apply Nat.leb_gt; lia). reflexivity.
Qed.
Lemma strip_num s : Forall num_char s -> strip s = s.
Proof.
  intros H. apply trimmed_strip. exists [], []. rewrite app_nil_r. split; auto. split; [constructor|]. split; [constructor|].
  rewrite Forall_forall in H. split; intros x u ->; apply num_char_ws, H; [left; auto|apply in_or_app; right; left; auto].
Qed.
Lemma lower_num s : Forall num_char s -> map lower s = s.
Proof. induction 1; cbn [map]; auto. rewrite num_char_lower, IHForall; auto. Qed.

Definition mant_char (c : ascii) : Prop := digit_char c \/ c = ch ".".
Lemma dec_abs_chars n k : Forall mant_char (dec_abs n k).
Proof.
  unfold dec_abs. assert (D := pad0_digits (S k) _ (n_str_digits n)). apply Forall_app. split; [|apply Forall_app; split].
  - apply Forall_forall. intros x Hx. left. rewrite Forall_forall in D. apply D. eapply firstn_In; eauto.
  - constructor; [right; reflexivity|constructor].
  - apply Forall_forall. intros x Hx. left. rewrite Forall_forall in D. apply D. eapply skipn_In; eauto.
Qed.
Lemma mant_num c : mant_char c -> num_char c. Proof. unfold mant_char, num_char. tauto. Qed.

Lemma dec_abs_mant n k : parse_mant (dec_abs n k) = Some (qdec (Z.of_N n) k).
Proof.
  unfold dec_abs. set (d := pad0 (S k) (n_str n)). assert (D := pad0_digits (S k) _ (n_str_digits n)). fold d in D.
  destruct (pad0_len (S k) (n_str n)) as [L _]. fold d in L.
  assert (NP : forall x, incl x d -> ~ In (ch ".") x).
  { intros x I H. rewrite Forall_forall in D. apply I, D in H. unfold digit_char in H. vm_compute in H. destruct H; lia. }
  unfold parse_mant. cbn [app]. rewrite split1_app by (apply NP; intros y Hy; eapply firstn_In; eauto).
  rewrite split1_none by (apply NP; intros y Hy; eapply skipn_In; eauto). rewrite firstn_skipn.
  destruct d as [|c d'] eqn:Ed; [cbn in L; lia|]. rewrite <- Ed in *. rewrite skipn_length.
  replace (length d - (length d - k)) with k by lia. unfold d. rewrite pad0_val, n_str_val. reflexivity.
Qed.
Lemma n_str_mant n : parse_mant (n_str n) = Some (qdec (Z.of_N n) 0).
Proof.
  unfold parse_mant. assert (D := n_str_digits n). rewrite split1_none.
  - assert (E := n_str_ne n). rewrite n_str_val. destruct (n_str n); [congruence|]. reflexivity.
  - intros H. rewrite Forall_forall in D. apply D in H. unfold digit_char in H. vm_compute in H. destruct H; lia.
Qed.

Lemma sign_parse m s c t : s = c :: t -> digit_char c -> parse_sign (sign_str m ++ s) = ((m <? 0)%Z, s).
Proof.
  intros -> H. unfold sign_str. destruct (m <? 0)%Z; cbn [app parse_sign]; [rewrite ascii_eqb_refl; auto|].
  assert (Ascii.eqb c (ch "-") = false) as ->. { apply Ascii.eqb_neq. apply digit_not; auto. unfold digit_char; vm_compute; lia. }
  assert (Ascii.eqb c (ch "+") = false) as ->. { apply Ascii.eqb_neq. apply digit_not; auto. unfold digit_char; vm_compute; lia. }
  reflexivity.
Qed.
Lemma not_word c t w : digit_char c -> ~ digit_char (hd c w) -> str_eqb (c :: t) w = false.
Proof.
  intros H N. apply str_eqb_neq. intros <-. cbn [hd] in N. contradiction.
Qed.
Lemma dec_abs_hd n k : exists c t, dec_abs n k = c :: t /\ digit_char c.
Proof.
  unfold dec_abs. set (d := pad0 (S k) (n_str n)). assert (D := pad0_digits (S k) _ (n_str_digits n)). fold d in D.
  destruct (pad0_len (S k) (n_str n)) as [L _]. fold d in L. destruct d as [|c d']; [cbn in L; lia|].
  cbn [length] in *. replace (S (length d') - k) with (S (length d' - k)) by lia. cbn [firstn app]. eexists _, _; split; [reflexivity|].
  inversion D; auto.
Qed.
Lemma n_str_hd n : exists c t, n_str n = c :: t /\ digit_char c.
Proof.
  assert (D := n_str_digits n). assert (E := n_str_ne n). destruct (n_str n); [congruence|]. inversion D; eauto.
Qed.
Lemma no_e s : Forall mant_char s -> ~ In (ch "e") s.
Proof. intros D H. rewrite Forall_forall in D. apply D in H. unfold mant_char, digit_char in H. vm_compute in H. destruct H as [[]|H]; [lia|discriminate]. Qed.

Ltac fchars := repeat (apply Forall_cons; [unfold num_char; auto 9; tauto|]); auto; try apply Forall_nil.
Lemma sign_chars m : Forall num_char (sign_str m).
Proof. unfold sign_str. destruct (m <? 0)%Z; fchars. Qed.

Lemma qopp_dec (m : Z) k : (m < 0)%Z -> Qopp (qdec (Z.of_N (Z.abs_N m)) k) = qdec m k.
Proof. intros H. unfold qdec, Qopp. cbn [Qnum Qden]. f_equal. rewrite N2Z.inj_abs_N. lia. Qed.
Lemma abs_dec (m : Z) k : (0 <= m)%Z -> qdec (Z.of_N (Z.abs_N m)) k = qdec m k.
Proof. intros H. rewrite N2Z.inj_abs_N, Z.abs_eq by auto. reflexivity. Qed.

Lemma words_no c t : digit_char c -> str_eqb (c :: t) ($"inf") || str_eqb (c :: t) ($"infinity") = false /\ str_eqb (c :: t) ($"nan") = false.
Proof.
  intros H. rewrite !not_word; auto; cbn [hd]; unfold digit_char; vm_compute; lia.
Qed.

Lemma parse_dec m k : parse_float (dec_str m k) = Some (FFin (qdec m k)).
Proof.
  unfold parse_float, dec_str. assert (C := dec_abs_chars (Z.abs_N m) k).
  assert (CN : Forall num_char (dec_abs (Z.abs_N m) k)) by (eapply Forall_impl; [|apply C]; apply mant_num).
  rewrite strip_num by (apply Forall_app; split; auto; apply sign_chars).
  destruct (dec_abs_hd (Z.abs_N m) k) as (c & t & E & Hc). rewrite (sign_parse m _ c t E Hc).
  rewrite lower_num by auto. rewrite E. destruct (words_no c t Hc) as [-> ->]. rewrite <- E.
  rewrite split1_none by (apply no_e; auto). rewrite dec_abs_mant.
  destruct (Z.ltb_spec m 0); [rewrite qopp_dec by auto|rewrite abs_dec by auto]; reflexivity.
Qed.

Lemma parse_exp_ok e : parse_exp ((if (e <? 0)%Z then ch "-" else ch "+") :: pad0 2 (n_str (Z.abs_N e))) = Some e.
Proof.
  unfold parse_exp. assert (P : parse_sign ((if (e <? 0)%Z then ch "-" else ch "+") :: pad0 2 (n_str (Z.abs_N e))) = ((e <? 0)%Z, pad0 2 (n_str (Z.abs_N e)))).
  { destruct (e <? 0)%Z; reflexivity. }
  rewrite P. destruct (pad0_len 2 (n_str (Z.abs_N e))) as [L _]. rewrite pad0_val, n_str_val.
  destruct (pad0 2 (n_str (Z.abs_N e))) eqn:Ed; [cbn in L; lia|]. cbn [option_map]. f_equal.
  rewrite N2Z.inj_abs_N. destruct (Z.ltb_spec e 0); lia.
Qed.

Lemma parse_exp_str m k e : parse_float (exp_str m k e) = Some (FFin (qdec m k * Qpower (10#1) e)%Q).
Proof.
  unfold parse_float, exp_str. set (d := mant_str (Z.abs_N m) k).
  assert (D : Forall mant_char d /\ parse_mant d = Some (qdec (Z.of_N (Z.abs_N m)) k) /\ exists c t, d = c :: t /\ digit_char c).
  { unfold d, mant_str. destruct (Nat.eqb_spec k 0) as [->|].
    - split; [eapply Forall_impl; [|apply n_str_digits]; left; auto|]. split; [apply n_str_mant|apply n_str_hd].
    - split; [apply dec_abs_chars|]. split; [apply dec_abs_mant|apply dec_abs_hd]. }
  destruct D as (DC & DM & c & t & DE & Hc). clearbody d.
  set (x := if (e <? 0)%Z then ch "-" else ch "+"). set (y := pad0 2 (n_str (Z.abs_N e))).
  assert (CX : num_char x) by (unfold x, num_char; destruct (e <? 0)%Z; tauto).
  assert (CY : Forall num_char y) by (unfold y; eapply Forall_impl; [|apply pad0_digits, n_str_digits]; left; auto).
  assert (CN : Forall num_char (d ++ [ch "e"] ++ [x] ++ y)).
  { apply Forall_app; split; [eapply Forall_impl; [|apply DC]; apply mant_num|]. cbn [app]. apply Forall_cons; [unfold num_char; tauto|]. apply Forall_cons; auto. }
  rewrite strip_num by (apply Forall_app; split; auto; apply sign_chars).
  rewrite (sign_parse m _ c (t ++ [ch "e"] ++ [x] ++ y)); [|rewrite DE; reflexivity|auto].
  rewrite lower_num by auto. cbn [app].
  assert (W : str_eqb (d ++ ch "e" :: x :: y) ($"inf") || str_eqb (d ++ ch "e" :: x :: y) ($"infinity") = false /\ str_eqb (d ++ ch "e" :: x :: y) ($"nan") = false).
  { rewrite DE. apply words_no; auto. }
  destruct W as [-> ->].
  rewrite split1_app by (apply no_e; auto).
  rewrite split1_none. 2:{ intros [H|H].
    - unfold x in H. destruct (e <? 0)%Z; discriminate.
    - unfold y in H. assert (Q := pad0_digits 2 _ (n_str_digits (Z.abs_N e))). rewrite Forall_forall in Q. apply Q in H.
      unfold digit_char in H; vm_compute in H; destruct H; lia. }
  rewrite DM. unfold x, y. rewrite parse_exp_ok. f_equal. f_equal.
  destruct (Z.ltb_spec m 0).
  - rewrite <- (qopp_dec m k) by auto. generalize (qdec (Z.of_N (Z.abs_N m)) k) (Qpower (10#1) e). intros [a b] [a' b'].
    unfold Qopp, Qmult. cbn [Qnum Qden]. f_equal. symmetry. apply Z.mul_opp_l.
  - rewrite (abs_dec m k) by auto. reflexivity.
Qed.

Lemma bound_chars b : Forall num_char (bound_str b).
Proof.
  destruct b as [m k|m k e| |]; cbn [bound_str].
  - unfold dec_str. apply Forall_app; split; [apply sign_chars|]. eapply Forall_impl; [|apply dec_abs_chars]; apply mant_num.
  - unfold exp_str. apply Forall_app; split; [apply sign_chars|]. apply Forall_app; split.
    + unfold mant_str. destruct (k =? 0); [eapply Forall_impl; [|apply n_str_digits]; left; auto|eapply Forall_impl; [|apply dec_abs_chars]; apply mant_num].
    + cbn [app]. constructor; [unfold num_char; tauto|]. constructor; [destruct (e <? 0)%Z; unfold num_char; tauto|].
      eapply Forall_impl; [|apply pad0_digits, n_str_digits]; left; auto.
  - change ($"inf") with [ch "i"; ch "n"; ch "f"]. fchars.
  - change ($"-inf") with [ch "-"; ch "i"; ch "n"; ch "f"]. fchars.
Qed.
Lemma parse_bound b : parse_float (bound_str b) = Some (bound_val b).
Proof. destruct b as [m k|m k e| |]; cbn [bound_str bound_val]; [apply parse_dec|apply parse_exp_str|reflexivity|reflexivity]. Qed.

(** ** labels *)
Lemma prefixb_space t c : c <> ch " " -> prefixb ($" - ") (c :: t) = false.
Proof.
  intros H. change ($" - ") with [ch " "; ch "-"; ch " "]. cbn [prefixb]. assert (E : Ascii.eqb (ch " ") c = false) by (apply Ascii.eqb_neq; auto).
  rewrite ?E. rewrite Ascii.eqb_sym in E. rewrite ?E. reflexivity.
Qed.
Lemma split_sub_none cur s : ~ In (ch " ") s -> split_sub_aux ($" - ") 0 cur s = [rev cur ++ s].
Proof.
  revert cur; induction s as [|c s IH]; intros cur N; cbn [split_sub_aux]; [rewrite app_nil_r; auto|].
  rewrite prefixb_space by (intros ->; apply N; left; auto). rewrite IH by (intros H; apply N; right; auto).
  cbn [rev]. rewrite <- app_assoc. reflexivity.
Qed.
Lemma split_sub_one cur a b : ~ In (ch " ") a -> ~ In (ch " ") b -> split_sub_aux ($" - ") 0 cur (a ++ $" - " ++ b) = [rev cur ++ a; b].
Proof.
  revert cur; induction a as [|c a IH]; intros cur N M.
  - cbn [app]. change ($" - " ++ b) with (ch " " :: ch "-" :: ch " " :: b). cbn [split_sub_aux].
    assert (P : prefixb ($" - ") (ch " " :: ch "-" :: ch " " :: b) = true) by reflexivity. rewrite P.
    change (length ($" - ") - 1) with 2. cbn [split_sub_aux]. rewrite app_nil_r. rewrite (split_sub_none [] b) by auto. reflexivity.
  - cbn [app split_sub_aux]. rewrite prefixb_space by (intros ->; apply N; left; auto).
    rewrite IH; auto; [|intros H; apply N; right; auto]. cbn [rev]. rewrite <- app_assoc. reflexivity.
Qed.
Lemma num_no_char s d : Forall num_char s -> ~ digit_char d ->
  ~ In d [ch "."; ch "-"; ch "+"; ch "e"; ch "i"; ch "n"; ch "f"] -> ~ In d s.
Proof. intros F N M H. rewrite Forall_forall in F. apply F in H. eapply num_char_not; eauto. Qed.
Ltac nochar := apply num_no_char; [apply bound_chars|unfold digit_char; vm_compute; lia|vm_compute; intuition discriminate].
Lemma has_char_false c s : ~ In c s -> has_char c s = false.
Proof. intros N. unfold has_char. apply Bool.not_true_iff_false. rewrite existsb_exists. intros (x & H & E). apply Ascii.eqb_eq in E. subst; auto. Qed.
Lemma del_char_none c s : ~ In c s -> del_char c s = s.
Proof.
  intros N. unfold del_char. apply filter_all. intros x Hx. apply Bool.negb_true_iff, Ascii.eqb_neq. intros ->; auto.
Qed.

Lemma label_floor_ceil l r : (bound_val l = FPInf -> r = BPInf) -> (bound_val r = FNInf -> l = BNInf) ->
  str_to_floor_ceil (interval_to_str l r) = Ok (bound_val l, bound_val r).
Proof.
  intros HL HR. unfold str_to_floor_ceil.
  assert (LT : forall b, has_char (ch "<") ($"<" ++ bound_str b) = true) by reflexivity.
  assert (B1 : forall b, ~ In (ch "<") (bound_str b)) by (intros; nochar).
  assert (B2 : forall b, ~ In (ch ">") (bound_str b)) by (intros; nochar).
  assert (B3 : forall b, ~ In (ch " ") (bound_str b)) by (intros; nochar).
  assert (LO : forall r, str_to_floor_ceil ($"<" ++ bound_str r) = Ok (FNInf, bound_val r)).
  { intros r0. unfold str_to_floor_ceil. rewrite LT. cbn [bind].
    assert (del_char (ch "<") ($"<" ++ bound_str r0) = bound_str r0) as ->.
    { change (del_char (ch "<") ($"<" ++ bound_str r0)) with (del_char (ch "<") (bound_str r0)). apply del_char_none; auto. }
    rewrite parse_bound. reflexivity. }
  assert (HI : forall l, str_to_floor_ceil ($">" ++ bound_str l) = Ok (bound_val l, FPInf)).
  { intros l0. unfold str_to_floor_ceil. rewrite (has_char_false (ch "<")). 2:{ intros [H|H]; [discriminate|apply (B1 _ H)]. }
    assert (has_char (ch ">") ($">" ++ bound_str l0) = true) as -> by reflexivity. cbn [bind].
    assert (del_char (ch ">") ($">" ++ bound_str l0) = bound_str l0) as ->.
    { change (del_char (ch ">") ($">" ++ bound_str l0)) with (del_char (ch ">") (bound_str l0)). apply del_char_none; auto. }
    rewrite parse_bound. reflexivity. }
  assert (MI : forall l r, str_to_floor_ceil (bound_str l ++ $" - " ++ bound_str r) = Ok (bound_val l, bound_val r)).
  { intros l0 r0. unfold str_to_floor_ceil.
    assert (N : forall d, ~ In d (bound_str l0) -> ~ In d (bound_str r0) -> ~ In d ($" - ") -> ~ In d (bound_str l0 ++ $" - " ++ bound_str r0)).
    { intros d H1 H2 H3 H. apply in_app_or in H. destruct H as [H|H]; [auto|]. apply in_app_or in H. destruct H; auto. }
    rewrite !has_char_false by (apply N; auto; vm_compute; intuition discriminate). cbn [bind].
    unfold find_floor_ceil. unfold split_sub. rewrite split_sub_one by auto. cbn [bind app rev]. rewrite !parse_bound. reflexivity. }
  change (str_to_floor_ceil (interval_to_str l r) = Ok (bound_val l, bound_val r)).
  unfold interval_to_str. destruct l; cbn [bound_val] in HL; try (destruct r; first [apply MI | apply HI]); try (apply LO).
  all: try (rewrite HL by reflexivity; apply HI).
Qed.

(** ** the order on ends *)
Lemma bound_val_ok b : bound_val b <> FNaN. Proof. destruct b; discriminate. Qed.
Lemma Qlt_b_iff a b : Qlt_b a b = true <-> (a < b)%Q.
Proof.
  unfold Qlt_b. first [rewrite Bool.negb_true_iff, <- Bool.not_true_iff_false, Qle_bool_iff; split; [apply Qnot_le_lt|apply Qlt_not_le]|idtac].
Qed.
Lemma flt_fle a b : a <> FNaN -> b <> FNaN -> flt a b = negb (fle b a).
Proof.
  intros NA NB. unfold fle. destruct a as [x| | |], b as [y| | |]; try congruence; cbn [flt feq]; auto.
  destruct (Qlt_b x y) eqn:E1.
  - apply Qlt_b_iff in E1. symmetry. apply Bool.negb_true_iff, Bool.orb_false_iff. split; apply Bool.not_true_iff_false.
    + rewrite Qlt_b_iff. lra.
    + rewrite Qeq_bool_iff. lra.
  - apply Bool.not_true_iff_false in E1. rewrite Qlt_b_iff in E1. symmetry. apply Bool.negb_false_iff, Bool.orb_true_iff.
    rewrite Qlt_b_iff, Qeq_bool_iff. lra.
Qed.
Lemma fle_fin x y : fle (FFin x) (FFin y) = true <-> (x <= y)%Q.
Proof. unfold fle. cbn [flt feq]. rewrite Bool.orb_true_iff, Qlt_b_iff, Qeq_bool_iff. lra. Qed.
Lemma fle_refl a : a <> FNaN -> fle a a = true.
Proof. intros N. destruct a; try congruence; auto. apply fle_fin. lra. Qed.
Lemma fle_trans a b c : fle a b = true -> fle b c = true -> fle a c = true.
Proof. destruct a, b, c; cbn; try discriminate; auto. rewrite !fle_fin. lra. Qed.
Lemma flt_le a b : flt a b = true -> fle a b = true.
Proof. unfold fle. intros ->; auto. Qed.
Lemma fle_lt_trans a b c : fle a b = true -> flt b c = true -> flt a c = true.
Proof.
  destruct a, b, c; cbn; try discriminate; auto. rewrite fle_fin, !Qlt_b_iff. lra.
Qed.
Lemma flt_le_trans a b c : flt a b = true -> fle b c = true -> flt a c = true.
Proof. destruct a, b, c; cbn; try discriminate; auto. rewrite fle_fin, !Qlt_b_iff. lra. Qed.
Lemma flt_irrefl a : flt a a = false.
Proof. destruct a; auto. cbn. apply Bool.not_true_iff_false. rewrite Qlt_b_iff. lra. Qed.

Definition ivl (b : bound * bound) : interval := mkint (bound_val (fst b)) (bound_val (snd b)).
Lemma in_interval_iff x b : in_interval x (ivl b) = true <-> contains b x.
Proof.
  unfold in_interval, contains, below, at_most, ivl. cbn [i_left i_right]. rewrite Bool.andb_true_iff.
  destruct (bound_val (fst b)), (bound_val (snd b)); cbn [flt]; rewrite ?Qlt_b_iff, ?fle_fin; cbn; intuition; discriminate.
Qed.

(** bins in order: non-empty, each ends before the next begins *)
Definition before (b c : bound * bound) : Prop := fle (bound_val (snd b)) (bound_val (fst c)) = true.
Definition proper (b : bound * bound) : Prop := flt (bound_val (fst b)) (bound_val (snd b)) = true.
Definition in_order (bins : list (bound * bound)) : Prop := Forall proper bins /\ ForallOrdPairs before bins.

Lemma contains_before b c x : before b c -> contains b x -> contains c x -> False.
Proof.
  unfold before, contains, below, at_most. intros B [_ H1] [H2 _].
  destruct (bound_val (snd b)), (bound_val (fst c)); cbn in *; try contradiction; try discriminate. apply fle_fin in B. lra.
Qed.
Lemma overlaps_before b c : before b c -> overlaps (ivl b) (ivl c) = false.
Proof.
  intros B. unfold overlaps, ivl. cbn [i_left i_right].
  set (lo := if fle (bound_val (fst b)) (bound_val (fst c)) then bound_val (fst c) else bound_val (fst b)).
  set (hi := if fle (bound_val (snd b)) (bound_val (snd c)) then bound_val (snd b) else bound_val (snd c)).
  assert (H1 : fle hi (bound_val (snd b)) = true).
  { unfold hi. destruct (fle (bound_val (snd b)) (bound_val (snd c))) eqn:E; [apply fle_refl, bound_val_ok|].
    apply flt_le. rewrite flt_fle, E by apply bound_val_ok. reflexivity. }
  assert (H2 : fle (bound_val (fst c)) lo = true).
  { unfold lo. destruct (fle (bound_val (fst b)) (bound_val (fst c))) eqn:E; [apply fle_refl, bound_val_ok|].
    apply flt_le. rewrite flt_fle, E by apply bound_val_ok. reflexivity. }
  assert (H3 : fle hi lo = true) by (eapply fle_trans; [eauto|]; eapply fle_trans; eauto).
  apply Bool.not_true_iff_false. intros H. assert (K := fle_lt_trans _ _ _ H3 H). rewrite flt_irrefl in K. discriminate.
Qed.
Lemma in_order_overlap bins : in_order bins -> any_overlap (map ivl bins) = false.
Proof.
  intros [_ O]. induction O as [|b l H O IH]; cbn [map any_overlap]; auto. rewrite IH, Bool.orb_false_r.
  apply Bool.not_true_iff_false. rewrite existsb_exists. intros (i & Hi & E). apply in_map_iff in Hi. destruct Hi as (c & <- & Hc).
  rewrite Forall_forall in H. rewrite overlaps_before in E by auto. discriminate.
Qed.
Lemma proper_label b : proper b -> str_to_interval (label b) = Ok (ivl b).
Proof.
  intros P. unfold proper in P. unfold str_to_interval, label. rewrite label_floor_ceil.
  - cbn [bind]. rewrite flt_le by auto. reflexivity.
  - intros E. rewrite E in P. destruct (snd b); discriminate.
  - intros E. rewrite E in P. destruct (fst b); discriminate.
Qed.
Lemma mapM_labels bins : Forall proper bins -> mapM str_to_interval (map label bins) = Ok (map ivl bins).
Proof. induction 1; cbn [map mapM]; auto. rewrite proper_label, IHForall by auto. reflexivity. Qed.

Lemma find_combine (bins : list (bound * bound)) x :
  find (fun p : interval * str => in_interval x (fst p)) (combine (map ivl bins) (map label bins)) =
  option_map (fun b => (ivl b, label b)) (find (fun b => in_interval x (ivl b)) bins).
Proof. induction bins as [|b l IH]; cbn [map combine find]; auto. cbn [fst]. destruct (in_interval x (ivl b)); auto. Qed.

Lemma order_split pre b post x : ForallOrdPairs before (pre ++ b :: post) -> contains b x -> forall c, In c (pre ++ post) -> ~ contains c x.
Proof.
  intros O H c Hc K. induction pre as [|a pre IH]; cbn [app] in *.
  - inversion O as [|? ? F _]; subst. rewrite Forall_forall in F. eapply contains_before; eauto.
  - inversion O as [|? ? F O']; subst. destruct Hc as [->|Hc]; auto. rewrite Forall_forall in F.
    eapply contains_before; [apply F|exact K|exact H]. apply in_or_app; right; left; auto.
Qed.
Lemma transform_exact bins vs : in_order bins -> exists out, transform_pandas (map label bins) vs = Ok out /\ Forall2 (binned bins) vs out.
Proof.
  intros O. unfold transform_pandas. rewrite mapM_labels by apply O. cbn [bind]. rewrite in_order_overlap by auto.
  eexists; split; [reflexivity|]. apply Forall2_map_self. intros v _. unfold binned, cut_value.
  destruct (num_of v) as [x|]; auto. rewrite find_combine. destruct (find _ bins) as [b|] eqn:E; cbn [option_map].
  - left. destruct (find_some _ _ E) as [H1 H2]. apply in_interval_iff in H2. apply in_split in H1. destruct H1 as (pre & post & ->).
    exists pre, b, post. split; auto. split; auto. split; [|reflexivity]. eapply order_split; eauto. apply O.
  - right. split; auto. intros b Hb H. apply in_interval_iff in H. eapply find_none in E; eauto. cbv beta in E. congruence.
Qed.

(** ** fitting *)
Lemma edge_pairs_cons {A} (a b : A) t : edge_pairs (a :: b :: t) = (a, b) :: edge_pairs (b :: t). Proof. reflexivity. Qed.
Lemma lower_than_lt a b : lower_than a b -> flt (bound_val a) (bound_val b) = true.
Proof. intros (p & q & -> & -> & H). cbn. apply Qlt_b_iff; auto. Qed.
Lemma edge_pairs_ge edges e : increasing (e :: edges) -> forall b, In b (edge_pairs (e :: edges)) -> fle (bound_val e) (bound_val (fst b)) = true.
Proof.
  revert e; induction edges as [|f t IH]; intros e I b Hb; [contradiction|]. rewrite edge_pairs_cons in Hb.
  cbn [increasing] in I. destruct I as (_ & L & I). destruct Hb as [<-|Hb]; [apply fle_refl, bound_val_ok|].
  eapply fle_trans; [apply flt_le, lower_than_lt, L|]. apply IH; auto.
Qed.
Lemma edge_pairs_order edges : increasing edges -> in_order (edge_pairs edges).
Proof.
  induction edges as [|a [|b t] IH]; intros I; try (split; constructor; fail). rewrite edge_pairs_cons.
  assert (I' := I). cbn [increasing] in I. destruct I as (_ & L & I). destruct (IH I) as [P O]. split; constructor; auto.
  - apply lower_than_lt, L.
  - apply Forall_forall. intros c Hc. unfold before. cbn [snd]. eapply edge_pairs_ge; eauto.
Qed.
Lemma edge_pairs_finite edges : increasing edges -> Forall (fun b => finite (fst b) /\ finite (snd b)) (edge_pairs edges).
Proof.
  induction edges as [|a [|b t] IH]; intros I; try constructor.
  - cbn [increasing] in I. cbn [fst snd]. tauto.
  - apply IH. cbn [increasing] in I. cbn [increasing]. tauto.
Qed.
Lemma ordpairs_filter {A} (R : A -> A -> Prop) f l : ForallOrdPairs R l -> ForallOrdPairs R (filter f l).
Proof.
  induction 1 as [|a l H O IH]; cbn [filter]; [constructor|]. destruct (f a); auto. constructor; auto.
  rewrite Forall_forall in *. intros x Hx. apply filter_In in Hx. apply H; tauto.
Qed.
Lemma Forall_filter {A} (P : A -> Prop) f l : Forall P l -> Forall P (filter f l).
Proof. rewrite !Forall_forall. intros H x Hx. apply filter_In in Hx. apply H; tauto. Qed.

Lemma extend_one a : extend_bins [a] = Ok [(BNInf, BPInf)]. Proof. destruct a; reflexivity. Qed.
Lemma extend_two l r mid l2 r2 : extend_bins ((l, r) :: mid ++ [(l2, r2)]) = Ok ((BNInf, r) :: mid ++ [(l2, BPInf)]).
Proof.
  unfold extend_bins. rewrite app_comm_cons, rev_app_distr. cbn [rev app]. cbn [rev]. rewrite rev_app_distr, rev_involutive. reflexivity.
Qed.
Lemma extend_nil_err : extend_bins [] = Err IndexError. Proof. reflexivity. Qed.

Lemma ordpairs_ends l r mid l2 r2 : in_order ((l, r) :: mid ++ [(l2, r2)]) -> finite r -> finite l2 ->
  in_order ((BNInf, r) :: mid ++ [(l2, BPInf)]).
Proof.
  intros [P O] FR FL. inversion P as [|? ? P1 P2]; subst. apply Forall_app in P2. destruct P2 as [P2 _].
  inversion O as [|? ? O1 O2]; subst. apply Forall_app in O1. destruct O1 as [O1 O1'].
  destruct FR as (qr & ER), FL as (ql & EL). split.
  - constructor; [unfold proper; cbn [fst snd bound_val]; rewrite ER; reflexivity|]. apply Forall_app. split; auto.
    constructor; [|constructor]. unfold proper; cbn [fst snd bound_val]; rewrite EL; reflexivity.
  - constructor.
    + apply Forall_app. split; [exact O1|]. constructor; [|constructor]. inversion O1'; subst. auto.
    + clear -O2. induction mid as [|a mid IH]; cbn [app] in *.
      * constructor; constructor.
      * inversion O2 as [|? ? F O]; subst. constructor; auto. apply Forall_app in F. destruct F as [F1 F2].
        apply Forall_app. split; auto. constructor; [|constructor]. inversion F2; subst. auto.
Qed.

Lemma ends_case {A} (l : list A) : l = [] \/ (exists a, l = [a]) \/ exists a mid b, l = a :: mid ++ [b].
Proof.
  destruct l as [|a l]; auto. right. destruct (rev l) as [|b m] eqn:E.
  - left. exists a. assert (l = []) as -> by (rewrite <- (rev_involutive l), E; reflexivity). auto.
  - right. exists a, (rev m), b. rewrite <- (rev_involutive l), E. reflexivity.
Qed.

(** the bins kept are some of the shown ones, in order *)
Lemma edge_pairs_map {A B : Type} (f : A -> B) l : edge_pairs (map f l) = map (fun p => (f (fst p), f (snd p))) (edge_pairs l).
Proof. induction l as [|a [|b t] IH]; [reflexivity..|]. cbn [map]. rewrite !edge_pairs_cons. cbn [map fst snd] in *. rewrite IH. reflexivity. Qed.
Lemma mark_first_snd {A} (l : list A) : map snd (mark_first l) = l.
Proof. destruct l as [|a t]; [reflexivity|]. cbn [mark_first map snd]. rewrite map_map. cbn [snd]. rewrite map_id. reflexivity. Qed.
Lemma pandas_bins_order edges vs : increasing (map e_shown edges) -> in_order (pandas_bins edges vs).
Proof.
  intros I. destruct (edge_pairs_order _ I) as [P O]. rewrite edge_pairs_map in P, O. change (fun p : edge * edge => (e_shown (fst p), e_shown (snd p))) with shown_bin in *.
  rewrite <- (mark_first_snd (edge_pairs edges)), map_map in P, O. unfold pandas_bins. split.
  - apply (proj2 (Forall_map _ _ _)), Forall_filter. apply (proj1 (Forall_map _ _ _)) in P. exact P.
  - induction (mark_first (edge_pairs edges)) as [|p l IH]; [constructor|]. cbn [map] in P, O. inversion P; inversion O; subst. cbn [filter].
    destruct (existsb _ vs); [|apply IH; auto]. cbn [map]. constructor; [|apply IH; auto]. apply (proj2 (Forall_map _ _ _)), Forall_filter. apply (proj1 (Forall_map _ _ _)) in H5. exact H5.
Qed.
Lemma pandas_bins_finite edges vs : increasing (map e_shown edges) -> Forall (fun b => finite (fst b) /\ finite (snd b)) (pandas_bins edges vs).
Proof.
  intros I. assert (F := edge_pairs_finite _ I). rewrite edge_pairs_map in F. change (fun p : edge * edge => (e_shown (fst p), e_shown (snd p))) with shown_bin in F.
  rewrite <- (mark_first_snd (edge_pairs edges)), map_map in F. unfold pandas_bins. apply (proj2 (Forall_map _ _ _)), Forall_filter. apply (proj1 (Forall_map _ _ _)) in F. exact F.
Qed.

(** the fitted bins of a feature, any increasing edges, any training values *)
Lemma fit_labels_exact edges vs : increasing (map e_shown edges) ->
  (pandas_bins edges vs = [] /\ fit_labels (pandas_bins edges vs) = Err IndexError) \/
  exists bins, fit_labels (pandas_bins edges vs) = Ok (map label bins) /\ length bins = length (pandas_bins edges vs) /\
    in_order bins /\
    (forall b x, In b (pandas_bins edges vs) -> contains b x -> exists b', In b' bins /\ contains b' x) /\
    (forall l r rest x, pandas_bins edges vs = (l, r) :: rest -> at_most x r -> exists b', In b' bins /\ contains b' x).
Proof.
  intros I. assert (O := pandas_bins_order edges vs I). assert (F := pandas_bins_finite edges vs I).
  destruct (ends_case (pandas_bins edges vs)) as [E|[(a & E)|((l & r) & mid & (l2 & r2) & E)]].
  - left. rewrite E. auto.
  - right. unfold fit_labels. rewrite E, extend_one. cbn [bind]. exists [(BNInf, BPInf)]. split; [reflexivity|]. split; [reflexivity|].
    split; [split; repeat constructor|]. split; intros; exists (BNInf, BPInf); (split; [left; auto|]); split; exact Logic.I.
  - right. unfold fit_labels. rewrite E in *. rewrite extend_two. cbn [bind]. exists ((BNInf, r) :: mid ++ [(l2, BPInf)]).
    split; [reflexivity|]. split; [cbn; rewrite !app_length; reflexivity|].
    inversion F as [|? ? F1 F2]; subst. apply Forall_app in F2. destruct F2 as [F2 F3]. inversion F3; subst.
    split; [eapply ordpairs_ends; eauto; cbn in *; tauto|].
    split; [|intros l0 r0 rest x X C; injection X as <- <- <-; exists (BNInf, r); split; [left; auto|]; split; auto; exact Logic.I].
    intros b x Hb [C1 C2]. destruct Hb as [<-|Hb].
    + exists (BNInf, r). split; [left; auto|]. split; auto. exact Logic.I.
    + apply in_app_or in Hb. destruct Hb as [Hb|[<-|[]]].
      * exists b. split; [right; apply in_or_app; auto|split; auto].
      * exists (l2, BPInf). split; [right; apply in_or_app; right; left; auto|]. split; auto. exact Logic.I.
Qed.

(** a number between the first and the last edge lies in the bin of two consecutive edges *)
Lemma edges_cover x lo mid hi : below lo x -> at_most x hi -> Forall finite mid ->
  exists b, In b (edge_pairs (lo :: mid ++ [hi])) /\ contains b x.
Proof.
  revert lo; induction mid as [|m mid IH]; intros lo B A F.
  - exists (lo, hi). split; [left; auto|split; auto].
  - inversion F as [|? ? (q & E) F']; subst. cbn [app]. rewrite edge_pairs_cons. destruct (Qlt_le_dec q x) as [H|H].
    + destruct (IH m) as (b & Hb & C); auto; [unfold below; rewrite E; auto|]. exists b. split; [right; auto|auto].
    + exists (lo, m). split; [left; auto|]. split; auto. unfold at_most. cbn [snd]. rewrite E. auto.
Qed.
Lemma increasing_finite edges : increasing edges -> Forall finite edges.
Proof. induction edges; cbn [increasing]; constructor; tauto. Qed.

(** the bin a training value is sorted into is kept *)
Lemma edge_pairs_hit x lo mid hi : (e_at lo < x)%Q -> (x <= e_at hi)%Q ->
  exists b, In b (edge_pairs (lo :: mid ++ [hi])) /\ (e_at (fst b) < x /\ x <= e_at (snd b))%Q.
Proof.
  revert lo; induction mid as [|m mid IH]; intros lo L H.
  - exists (lo, hi). split; [left; auto|split; auto].
  - cbn [app]. rewrite edge_pairs_cons. destruct (Qlt_le_dec (e_at m) x) as [D|D].
    + destruct (IH m D H) as (b & Hb & C). exists b. split; [right; auto|auto].
    + exists (lo, m). split; [left; auto|split; auto].
Qed.
Lemma kept_strict edges vs v x b : In v vs -> num_of v = Some x -> In b (edge_pairs edges) -> (e_at (fst b) < x /\ x <= e_at (snd b))%Q ->
  In (shown_bin b) (pandas_bins edges vs).
Proof.
  intros Hv Hx Hb [L H]. unfold pandas_bins. rewrite <- (mark_first_snd (edge_pairs edges)) in Hb. apply in_map_iff in Hb. destruct Hb as ([fl b'] & E & I).
  cbn [snd] in E. subst b'. apply in_map_iff. exists (fl, b). split; auto. apply filter_In. split; auto. apply existsb_exists. exists v. split; auto.
  unfold sorted_into. cbn [fst snd]. rewrite Hx. apply andb_true_intro. split; [|apply Qle_bool_iff; auto].
  destruct fl; [apply Qle_bool_iff, Qlt_le_weak; auto|apply Qlt_b_iff; auto].
Qed.
Lemma training_kept edges vs v x : In v vs -> num_of v = Some x ->
  (exists lo mid hi, edges = lo :: mid ++ [hi] /\ (e_at lo <= x /\ x <= e_at hi)%Q) -> pandas_bins edges vs <> [].
Proof.
  intros Hv Hx (lo & mid & hi & -> & L & H) E. apply Qle_lteq in L. destruct L as [L|L].
  - destruct (edge_pairs_hit x lo mid hi L H) as (b & Hb & C). apply (kept_strict _ vs v x b Hv Hx Hb) in C. rewrite E in C. contradiction.
  - assert (K : exists p, In p (mark_first (edge_pairs (lo :: mid ++ [hi]))) /\ existsb (sorted_into (fst p) (snd p)) vs = true).
    { destruct mid as [|m mid]; cbn [app]; rewrite edge_pairs_cons; cbn [mark_first].
      - exists (true, (lo, hi)). split; [left; auto|]. apply existsb_exists. exists v. split; auto. unfold sorted_into. cbn [fst snd]. rewrite Hx.
        apply andb_true_intro. split; apply Qle_bool_iff; [rewrite L; apply Qle_refl|auto].
      - destruct (Qlt_le_dec (e_at m) x) as [D|D].
        + destruct (edge_pairs_hit x m mid hi D H) as (b & Hb & C1 & C2). exists (false, b). split; [right; apply in_map; exact Hb|].
          apply existsb_exists. exists v. split; auto. unfold sorted_into. cbn [fst snd]. rewrite Hx. apply andb_true_intro.
          split; [apply Qlt_b_iff; auto|apply Qle_bool_iff; auto].
        + exists (true, (lo, m)). split; [left; auto|]. apply existsb_exists. exists v. split; auto. unfold sorted_into. cbn [fst snd]. rewrite Hx.
          apply andb_true_intro. split; apply Qle_bool_iff; [rewrite L; apply Qle_refl|auto]. }
    destruct K as (p & I & B). assert (In (shown_bin (snd p)) (pandas_bins (lo :: mid ++ [hi]) vs)).
    { unfold pandas_bins. apply in_map_iff. exists p. split; auto. apply filter_In. auto. }
    rewrite E in H0. contradiction.
Qed.

(** no bin dropped: contiguous *)
Lemma edge_pairs_snoc {A} (lo : A) mid hi : exists p, edge_pairs (lo :: mid ++ [hi]) = p ++ [(last (lo :: mid) lo, hi)] /\
  forall hi', edge_pairs (lo :: mid ++ [hi']) = p ++ [(last (lo :: mid) lo, hi')].
Proof.
  revert lo; induction mid as [|m mid IH]; intros lo; [exists []; auto|]. cbn [app]. rewrite edge_pairs_cons.
  destruct (IH m) as (p & E1 & E2). exists ((lo, m) :: p). rewrite E1. assert (L : last (lo :: m :: mid) lo = last (m :: mid) m).
  { change (last (m :: mid) lo = last (m :: mid) m). clear. revert lo m. induction mid as [|x t IH]; intros; auto. change (last (x :: t) lo = last (x :: t) m).
    rewrite (IH lo x), (IH m x). reflexivity. }
  rewrite L. split; auto. intros hi'. rewrite edge_pairs_cons, E2. reflexivity.
Qed.
Lemma extend_contiguous lo mid hi : extend_bins (edge_pairs (lo :: mid ++ [hi])) = Ok (edge_pairs (BNInf :: mid ++ [BPInf])).
Proof.
  destruct mid as [|m mid]; [reflexivity|]. cbn [app]. rewrite !edge_pairs_cons.
  destruct (edge_pairs_snoc m mid hi) as (p & E1 & E2). rewrite E1, (E2 BPInf). apply extend_two.
Qed.
Lemma edge_pairs_fst {A} (lo : A) mid hi : map fst (edge_pairs (lo :: mid ++ [hi])) = lo :: mid /\ map snd (edge_pairs (lo :: mid ++ [hi])) = mid ++ [hi].
Proof. revert lo; induction mid as [|m mid IH]; intros lo; [auto|]. cbn [app]. rewrite edge_pairs_cons. cbn [map fst snd]. destruct (IH m) as [-> ->]. auto. Qed.

Lemma all_kept edges vs : (forall b, In b (edge_pairs edges) -> exists v x, In v vs /\ num_of v = Some x /\ (e_at (fst b) < x /\ x <= e_at (snd b))%Q) ->
  pandas_bins edges vs = edge_pairs (map e_shown edges).
Proof.
  intros H. rewrite edge_pairs_map. change (fun p : edge * edge => (e_shown (fst p), e_shown (snd p))) with shown_bin. unfold pandas_bins.
  rewrite filter_all.
  - rewrite <- (map_map snd shown_bin), mark_first_snd. reflexivity.
  - intros [fl b] I. cbn [fst snd]. assert (Hb : In b (edge_pairs edges)) by (rewrite <- mark_first_snd; apply in_map_iff; exists (fl, b); auto).
    destruct (H b Hb) as (v & x & Hv & Hx & L & U). apply existsb_exists. exists v. split; auto. unfold sorted_into. rewrite Hx.
    apply andb_true_intro. split; [|apply Qle_bool_iff; auto]. destruct fl; [apply Qle_bool_iff, Qlt_le_weak; auto|apply Qlt_b_iff; auto].
Qed.

Lemma contiguous_order lo mid hi : increasing (lo :: mid ++ [hi]) -> in_order (edge_pairs (BNInf :: mid ++ [BPInf])).
Proof.
  intros I. destruct mid as [|m mid]; [split; repeat constructor|].
  assert (O := edge_pairs_order _ I). assert (F := edge_pairs_finite _ I). cbn [app] in *. rewrite edge_pairs_cons in *.
  destruct (edge_pairs_snoc m mid hi) as (p & E1 & E2). rewrite E1 in *. rewrite (E2 BPInf).
  inversion F as [|? ? F1 F2]; subst. apply Forall_app in F2. destruct F2 as [F2 F3]. inversion F3; subst.
  eapply ordpairs_ends; eauto; cbn in *; tauto.
Qed.

(** ** numpy engine *)
Definition count_le (x : Q) (ths : list bound) : nat := length (filter (fun t => Qle_bool (bin_val t) x) ths).
Lemma increasing_app_last lo mid hi : increasing (lo :: mid ++ [hi]) ->
  Forall (fun m => (bin_val m < bin_val hi)%Q /\ (bin_val lo < bin_val m)%Q) mid /\ (bin_val lo < bin_val hi)%Q /\ increasing mid.
Proof.
  assert (LT : forall a b, lower_than a b -> (bin_val a < bin_val b)%Q).
  { intros a b (p & q & E1 & E2 & H). unfold bin_val. rewrite E1, E2. auto. }
  revert lo; induction mid as [|m mid IH]; intros lo I; cbn [app increasing] in *.
  - split; [constructor|]. split; [apply LT; tauto|auto].
  - destruct I as (FL & L & I). apply LT in L. destruct (IH m I) as (F & H & I'). split; [|split].
    + constructor; [split; auto|]. eapply Forall_impl; [|exact F]. cbv beta. intros a [? ?]. split; lra.
    + lra.
    + split; [tauto|]. split; auto. destruct mid; auto. destruct I as (_ & I & _). exact I.
Qed.
Lemma count_le_cons x t l : count_le x (t :: l) = (if Qle_bool (bin_val t) x then 1 else 0) + count_le x l.
Proof. unfold count_le. cbn [filter]. destruct (Qle_bool (bin_val t) x); reflexivity. Qed.
Lemma count_le_bound x l : count_le x l <= length l.
Proof. apply filter_length_le. Qed.
Lemma digitize_mid x lo mid hi : increasing (lo :: mid ++ [hi]) ->
  clip_idx (S (length mid)) (count_le x (lo :: mid ++ [hi])) = count_le x mid.
Proof.
  intros I. destruct (increasing_app_last lo mid hi I) as (F & H & _).
  rewrite count_le_cons. unfold count_le at 1. rewrite filter_app, app_length. fold (count_le x mid). cbn [filter].
  assert (B := count_le_bound x mid). unfold clip_idx.
  destruct (Qle_bool (bin_val lo) x) eqn:E1; destruct (Qle_bool (bin_val hi) x) eqn:E2; cbn [length].
  - assert (count_le x mid = length mid) as ->; [|lia]. unfold count_le. f_equal. apply filter_all. intros m Hm. rewrite Forall_forall in F.
    apply Qle_bool_iff in E2. apply Qle_bool_iff. specialize (F m Hm). lra.
  - lia.
  - apply Qle_bool_iff in E2. apply Bool.not_true_iff_false in E1. rewrite Qle_bool_iff in E1. lra.
  - assert (count_le x mid = 0) as ->; [|lia]. unfold count_le. rewrite filter_none; auto. intros m Hm. rewrite Forall_forall in F.
    apply Bool.not_true_iff_false. apply Bool.not_true_iff_false in E1. rewrite Qle_bool_iff in *. specialize (F m Hm). lra.
Qed.
Lemma numpy_bin x lo mid : increasing mid -> (match bound_val lo with FFin q => (q <= x)%Q | FNInf => True | _ => False end) ->
  exists b, nth_error (edge_pairs (lo :: mid ++ [BPInf])) (count_le x mid) = Some b /\ contains_left b x.
Proof.
  revert lo; induction mid as [|m mid IH]; intros lo I L; cbn [app]; rewrite edge_pairs_cons.
  - exists (lo, BPInf). split; auto. split; auto; exact Logic.I.
  - cbn [increasing] in I. destruct I as ((q & E) & LT & I). rewrite count_le_cons. unfold bin_val at 1. rewrite E.
    destruct (Qle_bool q x) eqn:Q1.
    + apply Qle_bool_iff in Q1. cbn [Nat.add nth_error]. apply (IH m); auto. rewrite E. auto.
    + apply Bool.not_true_iff_false in Q1. rewrite Qle_bool_iff in Q1. cbn [Nat.add].
      assert (count_le x mid = 0) as ->.
      { unfold count_le. rewrite filter_none; auto.
        assert (G : forall l p, increasing l -> (match l with [] => True | b :: _ => lower_than p b end) -> forall y, In y l -> (bin_val p < bin_val y)%Q).
        { clear. induction l as [|a l IH]; intros p I LT y Hy; [contradiction|]. cbn [increasing] in I. destruct I as (_ & LT' & I).
          assert (P : (bin_val p < bin_val a)%Q) by (destruct LT as (u & v & E1 & E2 & H); unfold bin_val; rewrite E1, E2; auto).
          destruct Hy as [<-|Hy]; auto. specialize (IH a I LT' y Hy). lra. }
        intros y Hy. apply Bool.not_true_iff_false. rewrite Qle_bool_iff. specialize (G mid m I LT y Hy). unfold bin_val at 1 in G. rewrite E in G. lra. }
      exists (lo, m). split; auto. split; auto. cbn [snd]. rewrite E. lra.
Qed.
Lemma numpy_exact lo mid hi v x : increasing (lo :: mid ++ [hi]) -> num_of v = Some x ->
  exists b, In b (edge_pairs (BNInf :: mid ++ [BPInf])) /\ contains_left b x /\
    transform_numpy (map bin_val (lo :: mid ++ [hi])) (map label (edge_pairs (BNInf :: mid ++ [BPInf]))) [v] = Ok [PStr (label b)].
Proof.
  intros I Hx. destruct (increasing_app_last lo mid hi I) as (_ & _ & I'). destruct (numpy_bin x BNInf mid I') as (b & N & C); [exact Logic.I|].
  exists b. split; [eapply nth_error_In; eauto|]. split; auto. unfold transform_numpy. cbn [mapM].
  assert (LE : length (map label (edge_pairs (BNInf :: mid ++ [BPInf]))) = S (length mid)).
  { rewrite map_length. rewrite <- (map_length fst). rewrite (proj1 (edge_pairs_fst BNInf mid BPInf)). reflexivity. }
  rewrite LE. unfold digitize. rewrite Hx.
  assert (CE : length (filter (fun t => Qle_bool t x) (map bin_val (lo :: mid ++ [hi]))) = count_le x (lo :: mid ++ [hi])).
  { unfold count_le. generalize (lo :: mid ++ [hi]). clear. intros l. induction l as [|a l IH]; [reflexivity|]. cbn [map filter].
    destruct (Qle_bool (bin_val a) x); cbn [length]; rewrite IH; reflexivity. }
  rewrite CE, digitize_mid by auto. rewrite (map_nth_error label _ _ N). reflexivity.
Qed.
