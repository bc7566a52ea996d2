(** * HeapFacts.v : separation of the models of a program *)
From Verif Require Export HeapSpec SessionFacts.
Open Scope nat_scope.

(** ** lists *)
Lemma nth_set_same {A} i (x d : A) l : i < length l -> nth i (set_nth i x l) d = x.
Proof. revert i; induction l as [|a l IH]; intros [|i] H; cbn in *; try lia; auto. apply IH. lia. Qed.
Lemma nth_set_other {A} i j (x d : A) l : i <> j -> nth j (set_nth i x l) d = nth j l d.
Proof. revert i j; induction l as [|a l IH]; intros [|i] [|j] H; cbn; auto; try congruence. Qed.
Lemma nth_app_old {A} i (l l' : list A) d : i < length l -> nth i (l ++ l') d = nth i l d.
Proof. intros. apply app_nth1; auto. Qed.
Lemma map_nth_seq {A} (l1 l2 : list A) d : map (fun r => nth r (l1 ++ l2) d) (seq (length l1) (length l2)) = l2.
Proof.
  revert l1. induction l2 as [|a l2 IH]; intros l1; cbn [length seq map]; auto. f_equal.
  - rewrite app_nth2, Nat.sub_diag by lia. reflexivity.
  - specialize (IH (l1 ++ [a])). rewrite app_length in IH. cbn [length] in IH. rewrite Nat.add_1_r in IH.
    rewrite <- app_assoc in IH. exact IH.
Qed.

(** ** well-formed heaps; what a change leaves alone *)
Definition wf (h : heap) : Prop :=
  (forall s, s < length (hs h) -> o_list (get_obj h s) < length (hl h)) /\
  (forall l, l < length (hl h) -> Forall (fun r => r < length (hr h)) (get_list h l)).
Record keeps (h h' : heap) (S L R : nat -> Prop) : Prop := mkkeeps {
  k_lr : length (hr h) <= length (hr h'); k_ll : length (hl h) <= length (hl h'); k_ls : length (hs h) <= length (hs h');
  k_s : forall s, s < length (hs h) -> ~ S s -> get_obj h' s = get_obj h s;
  k_l : forall l, l < length (hl h) -> ~ L l -> get_list h' l = get_list h l;
  k_r : forall r, r < length (hr h) -> ~ R r -> get_rule h' r = get_rule h r }.
Definition none : nat -> Prop := fun _ => False.
Lemma keeps_refl h S L R : keeps h h S L R.
Proof. constructor; auto. Qed.
Lemma keeps_trans h1 h2 h3 S L R : keeps h1 h2 S L R -> keeps h2 h3 S L R -> keeps h1 h3 S L R.
Proof.
  intros [A1 A2 A3 A4 A5 A6] [B1 B2 B3 B4 B5 B6]. constructor; try lia; intros.
  - rewrite B4, A4; auto; lia.
  - rewrite B5, A5; auto; lia.
  - rewrite B6, A6; auto; lia.
Qed.
Lemma keeps_weak h h' (S L R S' L' R' : nat -> Prop) :
  (forall x, S x -> S' x) -> (forall x, L x -> L' x) -> (forall x, R x -> R' x) -> keeps h h' S L R -> keeps h h' S' L' R'.
Proof. intros a b c [A1 A2 A3 A4 A5 A6]. constructor; auto. Qed.

Lemma keeps_set h h' (S L R : nat -> Prop) s : wf h -> keeps h h' S L R -> s < length (hs h) ->
  ~ S s -> ~ L (o_list (get_obj h s)) -> (forall r, In r (refs h s) -> ~ R r) ->
  get_obj h' s = get_obj h s /\ refs h' s = refs h s /\ get_set h' s = get_set h s.
Proof.
  intros [W1 W2] [A1 A2 A3 A4 A5 A6] V NS NL NR. assert (O := A4 s V NS). assert (RF : refs h' s = refs h s).
  { unfold refs. rewrite O. apply A5; auto. }
  repeat split; auto. unfold get_set. rewrite RF, O. f_equal. apply map_ext_in. intros r I. apply A6; auto.
  pose proof (W2 _ (W1 _ V)) as F. rewrite Forall_forall in F. apply F. exact I.
Qed.

(** ** the elementary changes *)
Lemma put_rule_facts h r x : wf h -> wf (put_rule h r x) /\ keeps h (put_rule h r x) none none (eq r).
Proof.
  intros [W1 W2]. split; [split|]; unfold put_rule, get_obj, get_list; cbn [hr hl hs]; auto.
  - intros l V. rewrite set_nth_length. apply W2; auto.
  - constructor; cbn [hr hl hs]; rewrite ?set_nth_length; auto. intros r' V N. unfold get_rule. cbn [hr]. apply nth_set_other. congruence.
Qed.
Lemma put_list_facts h l x : wf h -> Forall (fun r => r < length (hr h)) x ->
  wf (put_list h l x) /\ keeps h (put_list h l x) none (eq l) none.
Proof.
  intros [W1 W2] F. split; [split|]; unfold put_list, get_obj, get_list; cbn [hr hl hs]; rewrite ?set_nth_length; auto.
  - intros l' V. destruct (Nat.eq_dec l l') as [ <- | N]; [rewrite nth_set_same; auto | rewrite nth_set_other; auto; apply W2; auto].
  - constructor; cbn [hr hl hs]; rewrite ?set_nth_length; auto. intros l' V N. unfold get_list. cbn [hl]. apply nth_set_other. auto.
Qed.
Lemma put_obj_facts h s o : wf h -> o_list o < length (hl h) -> wf (put_obj h s o) /\ keeps h (put_obj h s o) (eq s) none none.
Proof.
  intros [W1 W2] F. split; [split|]; unfold put_obj, get_obj, get_list; cbn [hr hl hs]; rewrite ?set_nth_length; auto.
  - intros l' V. destruct (Nat.eq_dec s l') as [ <- | N]; [rewrite nth_set_same; auto | rewrite nth_set_other; auto; apply W1; auto].
  - constructor; cbn [hr hl hs]; rewrite ?set_nth_length; auto. intros l' V N. unfold get_obj. cbn [hs]. apply nth_set_other. auto.
Qed.
Lemma new_rule_facts h r : wf h -> wf (fst (new_rule h r)) /\ keeps h (fst (new_rule h r)) none none none
  /\ get_rule (fst (new_rule h r)) (snd (new_rule h r)) = r /\ hl (fst (new_rule h r)) = hl h /\ hs (fst (new_rule h r)) = hs h
  /\ snd (new_rule h r) = length (hr h) /\ length (hr (fst (new_rule h r))) = S (length (hr h)).
Proof.
  intros [W1 W2]. unfold new_rule. cbn [fst snd hr hl hs]. repeat split; cbn [hr hl hs]; rewrite ?app_length; cbn [length]; auto; try lia.
  - intros l V. unfold get_list. cbn [hl]. eapply Forall_impl; [|apply W2; exact V]. intros; cbn beta in *; lia.
  - intros x V _. unfold get_rule. cbn [hr]. apply nth_app_old; auto.
  - unfold get_rule. cbn [hr]. rewrite app_nth2, Nat.sub_diag by lia. reflexivity.
Qed.
Lemma new_obj_facts h l p u : wf h -> Forall (fun r => r < length (hr h)) l ->
  let h' := fst (new_obj h l p u) in let s := snd (new_obj h l p u) in
  wf h' /\ keeps h h' none none none /\ s = length (hs h) /\ s < length (hs h') /\ o_list (get_obj h' s) = length (hl h)
  /\ refs h' s = l /\ hr h' = hr h /\ get_set h' s = mkruleset (map (get_rule h) l) p u.
Proof.
  intros [W1 W2] F h' s. unfold h', s, new_obj. cbn [fst snd].
  assert (O : forall s, s < length (hs h) -> get_obj (mkheap (hr h) (hl h ++ [l]) (hs h ++ [mkrsobj (length (hl h)) p u])) s = get_obj h s).
  { intros. unfold get_obj. cbn [hs]. apply nth_app_old; auto. }
  assert (O2 : get_obj (mkheap (hr h) (hl h ++ [l]) (hs h ++ [mkrsobj (length (hl h)) p u])) (length (hs h)) = mkrsobj (length (hl h)) p u).
  { unfold get_obj. cbn [hs]. rewrite app_nth2, Nat.sub_diag by lia. reflexivity. }
  assert (R2 : get_list (mkheap (hr h) (hl h ++ [l]) (hs h ++ [mkrsobj (length (hl h)) p u])) (length (hl h)) = l).
  { unfold get_list. cbn [hl]. rewrite app_nth2, Nat.sub_diag by lia. reflexivity. }
  repeat split; cbn [hr hl hs]; rewrite ?app_length; cbn [length]; auto; try lia.
  - intros x V. destruct (Nat.eq_dec x (length (hs h))) as [ -> | N]; [rewrite O2; cbn [o_list]; lia | ].
    rewrite O by lia. specialize (W1 x ltac:(lia)). lia.
  - intros x V. destruct (Nat.eq_dec x (length (hl h))) as [ -> | N]; [rewrite R2; auto|].
    unfold get_list. cbn [hl]. rewrite nth_app_old by lia. apply W2. lia.
  - intros x V _. unfold get_list. cbn [hl]. apply nth_app_old; auto.
  - rewrite O2. reflexivity.
  - unfold refs. rewrite O2. exact R2.
  - unfold get_set, refs. rewrite O2. cbn [o_list o_possible o_uncov]. rewrite R2. reflexivity.
Qed.
Lemma new_rules_facts h l : wf h -> let h' := mkheap (hr h ++ l) (hl h) (hs h) in
  wf h' /\ keeps h h' none none none /\ map (get_rule h') (seq (length (hr h)) (length l)) = l
  /\ Forall (fun r => r < length (hr h')) (seq (length (hr h)) (length l)).
Proof.
  intros [W1 W2] h'. unfold h'. repeat split; cbn [hr hl hs]; rewrite ?app_length; auto; try lia.
  - intros x V. unfold get_list. cbn [hl]. eapply Forall_impl; [|apply W2; exact V]. intros; cbn beta in *; lia.
  - intros x V _. unfold get_rule. cbn [hr]. apply nth_app_old; auto.
  - unfold get_rule. cbn [hr]. apply map_nth_seq.
  - rewrite Forall_forall. intros x I. apply in_seq in I. lia.
Qed.

(** a new Ruleset object shares nothing with what existed before *)
Record fresh_set (h h' : heap) (s : nat) (x : ruleset) : Prop := mkfresh {
  f_wf : wf h'; f_keeps : keeps h h' none none none;
  f_s : length (hs h) <= s < length (hs h'); f_l : length (hl h) <= o_list (get_obj h' s);
  f_r : forall r, In r (refs h' s) -> length (hr h) <= r; f_nd : NoDup (refs h' s);
  f_x : get_set h' s = x }.
Lemma new_set_facts h x : wf h -> let h' := fst (new_set h x) in let s := snd (new_set h x) in
  fresh_set h h' s x.
Proof.
  intros W. unfold new_set. destruct (new_rules_facts h (rs_rules x) W) as (W1 & K1 & M1 & F1).
  set (h1 := mkheap (hr h ++ rs_rules x) (hl h) (hs h)) in *.
  destruct (new_obj_facts h1 (seq (length (hr h)) (length (rs_rules x))) (rs_possible x) (rs_uncov x) W1 F1) as (A & B & C & D & E & F & G & H).
  cbv zeta in *. constructor.
  - exact A.
  - eapply keeps_trans; eauto.
  - split; [rewrite C; apply Nat.le_refl | exact D].
  - rewrite E. apply Nat.le_refl.
  - rewrite F. intros r I. apply in_seq in I. lia.
  - rewrite F. apply seq_NoDup.
  - rewrite H, M1. destruct x; reflexivity.
Qed.

(** ** deep copy *)
Lemma memo_get_In memo r r' : memo_get memo r = Some r' -> In (r, r') memo.
Proof. induction memo as [|[a b] t IH]; cbn; [discriminate|]. destruct (a =? r) eqn:E; [apply Nat.eqb_eq in E; intros H; injection H as <-; subst; auto | auto]. Qed.
Lemma copy_rules_facts l : forall h memo, wf h -> Forall (fun r => r < length (hr h)) l ->
  forall n0, n0 <= length (hr h) -> (forall a b, In (a, b) memo -> n0 <= b < length (hr h) /\ get_rule h b = get_rule h a /\ a < n0) ->
  Forall (fun r => r < n0) l ->
  NoDup l -> (forall a, In a l -> memo_get memo a = None) ->
  let h' := fst (copy_rules h memo l) in let l' := snd (copy_rules h memo l) in
  wf h' /\ keeps h h' none none none /\ hl h' = hl h /\ hs h' = hs h /\ map (get_rule h') l' = map (get_rule h) l
  /\ (forall r, In r l' -> length (hr h) <= r < length (hr h')) /\ NoDup l'.
Proof.
  induction l as [|r t IH]; intros h memo W F n0 LE MI FN ND NM; cbn [copy_rules].
  - cbn [fst snd]. split; [auto|]. split; [apply keeps_refl|]. split; [auto|]. split; [auto|]. split; [auto|]. split; [intros ? HH; destruct HH | constructor].
  - rewrite (NM r (or_introl eq_refl)).
    destruct (new_rule_facts h (get_rule h r) W) as (W1 & K1 & G1 & L1 & S1 & N1 & LN).
    destruct (new_rule h (get_rule h r)) as [h0 r'] eqn:E0. cbn [fst snd] in *.
    inversion F as [|? ? F1 F2]; subst. inversion FN as [|? ? FN1 FN2]; subst. inversion ND as [|? ? ND1 ND2]; subst.
    assert (F2' : Forall (fun r0 => r0 < length (hr h0)) t) by (eapply Forall_impl; [|exact F2]; intros; cbn beta in *; lia).
    assert (MI' : forall a b, In (a, b) ((r, length (hr h)) :: memo) -> n0 <= b < length (hr h0) /\ get_rule h0 b = get_rule h0 a /\ a < n0).
    { intros a b [H | H].
      - injection H as <- <-. split; [lia|]. split; [|exact FN1]. rewrite G1. symmetry. apply (k_r _ _ _ _ _ K1); [exact F1 | intros []].
      - destruct (MI a b H) as (B1 & B2 & B3). split; [lia|]. split; [|exact B3].
        rewrite (k_r _ _ _ _ _ K1 b), (k_r _ _ _ _ _ K1 a); auto; try lia; intros []. }
    specialize (IH h0 ((r, length (hr h)) :: memo) W1 F2' n0 ltac:(lia) MI' FN2 ND2).
    assert (NM' : forall a, In a t -> memo_get ((r, length (hr h)) :: memo) a = None).
    { intros a I. cbn [memo_get]. destruct (r =? a) eqn:E; [apply Nat.eqb_eq in E; subst; contradiction|]. apply NM. right; auto. }
    specialize (IH NM'). destruct (copy_rules h0 ((r, length (hr h)) :: memo) t) as [h1 l1]. cbn [fst snd] in IH |- *.
    destruct IH as (A & B & C & D & M & R & N). split; auto. split; [eapply keeps_trans; eauto|]. split; [congruence|]. split; [congruence|].
    split; [|split].
    + cbn [map]. f_equal.
      * rewrite (k_r _ _ _ _ _ B); [exact G1 | lia | intros []].
      * rewrite M. apply map_ext_in. intros a I. apply (k_r _ _ _ _ _ K1); [rewrite Forall_forall in F2; auto | intros []].
    + intros x [ <- | I]; [split; [lia|]; pose proof (k_lr _ _ _ _ _ B); lia | specialize (R x I); lia].
    + constructor; auto. intros I. specialize (R _ I). lia.
Qed.

Lemma refs_bound h s : wf h -> s < length (hs h) -> Forall (fun r => r < length (hr h)) (refs h s).
Proof. intros [W1 W2] V. apply W2. apply W1. exact V. Qed.
Lemma copy_set_facts h s : wf h -> s < length (hs h) -> NoDup (refs h s) ->
  fresh_set h (fst (copy_set h s)) (snd (copy_set h s)) (get_set h s).
Proof.
  intros W V ND. unfold copy_set. pose proof (refs_bound h s W V) as RB.
  destruct (copy_rules_facts (refs h s) h [] W RB (length (hr h)) (Nat.le_refl _) ltac:(intros a b HH; destruct HH) RB ND ltac:(reflexivity))
    as (W1 & K1 & L1 & S1 & M1 & R1 & N1).
  destruct (copy_rules h [] (refs h s)) as [h1 l]. cbn [fst snd] in *.
  assert (FL : Forall (fun r => r < length (hr h1)) l) by (rewrite Forall_forall; intros r I; apply R1; auto).
  destruct (new_obj_facts h1 l (o_possible (get_obj h s)) (o_uncov (get_obj h s)) W1 FL) as (A & B & C & D & E & F & G & H).
  cbv zeta in *. constructor.
  - exact A.
  - eapply keeps_trans; eauto.
  - split; [rewrite C, S1; apply Nat.le_refl | exact D].
  - rewrite E, L1. apply Nat.le_refl.
  - rewrite F. intros r I. apply R1; auto.
  - rewrite F. exact N1.
  - rewrite H, M1. reflexivity.
Qed.

(** ** editing *)
Definition vedit (h : heap) (ed : ledit) (l : list rule) : res (list rule) :=
  match ed with
  | EAdd a => r <- arg_value h a ;; Ok (rs_add r l)
  | ERemoveAt i => rs_remove i l
  | ERemove a => r <- arg_value h a ;; rs_remove_rule r l
  | EInsertAt i a => _ <- check_index i l ;; r <- arg_value h a ;; rs_insert i r l
  | EInsert b a => q <- arg_value h b ;; _ <- find_rule q l ;; r <- arg_value h a ;; rs_insert_rule q r l
  | EReplaceAt i a => _ <- check_index i l ;; r <- arg_value h a ;; rs_replace i r l
  | EReplace b a => q <- arg_value h b ;; _ <- find_rule q l ;; r <- arg_value h a ;; rs_replace_rule q r l
  end.
Lemma perform_edit w c h ed : perform w c (call_of h ed) = let '(c', r) := edit c (vedit h ed) in (c', failure r).
Proof. destruct ed; reflexivity. Qed.

Definition arg_exists (h : heap) (a : arg) : Prop := match a with AObj r => r < length (hr h) | AVal _ => True end.
Lemma place_facts h a r : wf h -> arg_exists h a -> arg_value h a = Ok r ->
  let h1 := fst (place h a r) in let n := snd (place h a r) in
  wf h1 /\ keeps h h1 none none none /\ hl h1 = hl h /\ hs h1 = hs h /\ get_rule h1 n = r /\ n < length (hr h1)
  /\ (a = AObj n \/ (length (hr h) <= n /\ exists o, a = AVal o)).
Proof.
  intros W AE AV. destruct a as [m|o]; cbn [place fst snd].
  - cbn in AV. injection AV as <-. split; auto. split; [apply keeps_refl|]. split; [auto|]. split; [auto|]. split; [auto|]. split; [exact AE | left; reflexivity].
  - destruct (new_rule_facts h r W) as (W1 & K1 & G1 & L1 & S1 & N1 & LN). cbv zeta. split; auto. split; auto. split; auto. split; auto. split; auto.
    split; [rewrite LN, N1; lia|]. right. split; [rewrite N1; lia | eauto].
Qed.

Lemma map_remove_nth {A B} (f : A -> B) n l : map f (remove_nth n l) = remove_nth n (map f l).
Proof. revert n; induction l as [|a l IH]; intros [|n]; cbn; auto. f_equal. auto. Qed.
Lemma map_firstn' {A B} (f : A -> B) n l : map f (firstn n l) = firstn n (map f l).
Proof. revert n; induction l as [|a l IH]; intros [|n]; cbn; auto. f_equal. auto. Qed.
Lemma map_skipn' {A B} (f : A -> B) n l : map f (skipn n l) = skipn n (map f l).
Proof. revert n; induction l as [|a l IH]; intros [|n]; cbn; auto. Qed.
Lemma In_remove_nth {A} n (l : list A) x : In x (remove_nth n l) -> In x l.
Proof. revert n; induction l as [|a l IH]; intros [|n]; cbn; auto. intros [H|H]; eauto. Qed.
Lemma NoDup_remove_nth {A} n (l : list A) : NoDup l -> NoDup (remove_nth n l).
Proof.
  revert n; induction l as [|a l IH]; intros [|n] H; cbn; auto; inversion H; subst; auto.
  constructor; auto. intros I. apply In_remove_nth in I. contradiction.
Qed.
Lemma In_insert {A} k (n : A) l x : In x (firstn k l ++ n :: skipn k l) -> x = n \/ In x l.
Proof.
  intros I. apply in_app_or in I. destruct I as [I | [I|I]]; auto; right; rewrite <- (firstn_skipn k l); apply in_or_app; auto.
Qed.
Lemma NoDup_insert {A} k (n : A) l : NoDup l -> ~ In n l -> NoDup (firstn k l ++ n :: skipn k l).
Proof.
  intros ND NI. eapply Permutation_NoDup; [apply Permutation_middle|]. rewrite firstn_skipn. constructor; auto.
Qed.
Lemma NoDup_set_nth {A} k (n : A) l : NoDup l -> ~ In n l -> NoDup (set_nth k n l).
Proof.
  revert k; induction l as [|a l IH]; intros [|k] H NI; cbn; auto; inversion H; subst.
  - constructor; auto. intros I; apply NI; right; auto.
  - constructor; [|apply IH; auto; intros I; apply NI; right; auto].
    intros I. apply In_set_nth in I. destruct I as [ -> | I]; [apply NI; left; auto | contradiction].
Qed.
Lemma find_then_index q l k : find_rule q l = Ok k -> check_index (Z.of_nat k) l = Ok k.
Proof.
  unfold find_rule. destruct (index_of q l) as [n|] eqn:E; [|discriminate]. intros H. injection H as <-.
  assert (n < length l).
  { revert n E. induction l as [|x t IH]; intros n E; cbn in E; [discriminate|]. destruct (rule_eqb x q); [injection E as <-; cbn; lia|].
    destruct (index_of q t); [|discriminate]. injection E as <-. cbn. specialize (IH _ eq_refl). lia. }
  unfold check_index. destruct (Z.ltb_spec (Z.of_nat n) 0); [lia|]. destruct (Z.leb_spec (Z.of_nat (length l)) (Z.of_nat n)); [lia|].
  cbn [orb]. rewrite Nat2Z.id. reflexivity.
Qed.

Lemma edit_refs_facts h l ed : wf h -> Forall (fun r => r < length (hr h)) l -> (forall a, stored ed = Some a -> arg_exists h a) ->
  match edit_refs h l ed with
  | Err e => vedit h ed (map (get_rule h) l) = Err e
  | Ok (h1, l1) =>
      vedit h ed (map (get_rule h) l) = Ok (map (get_rule h1) l1)
      /\ wf h1 /\ keeps h h1 none none none /\ hl h1 = hl h /\ hs h1 = hs h
      /\ (forall r, In r l1 -> In r l \/ stored ed = Some (AObj r) \/ length (hr h) <= r)
      /\ Forall (fun r => r < length (hr h1)) l1
      /\ (NoDup l -> (forall r, stored ed = Some (AObj r) -> ~ In r l) -> NoDup l1)
  end.
Proof.
  intros W F AE.
  assert (KM : forall h1, keeps h h1 none none none -> map (get_rule h1) l = map (get_rule h) l).
  { intros h1 K. apply map_ext_in. intros r I. apply (k_r _ _ _ _ _ K); [rewrite Forall_forall in F; auto | intros []]. }
  assert (FW : forall h1, keeps h h1 none none none -> Forall (fun r => r < length (hr h1)) l).
  { intros h1 K. eapply Forall_impl; [|exact F]. intros r Hr. pose proof (k_lr _ _ _ _ _ K). cbn beta in *. lia. }
  assert (NIN : forall n, (stored ed = Some (AObj n) \/ length (hr h) <= n) -> (forall r, stored ed = Some (AObj r) -> ~ In r l) -> ~ In n l).
  { intros n [Hn|Hn] NI I; [eapply NI; eauto|]. rewrite Forall_forall in F. specialize (F _ I). lia. }
  destruct ed as [a|i|a|i a|b a|i a|b a]; cbn [edit_refs vedit stored] in *.
  - destruct (arg_value h a) as [r|e] eqn:E; cbn [bind]; auto.
    destruct (place_facts h a r W (AE a eq_refl) E) as (W1 & K1 & L1 & S1 & G1 & B1 & C1). destruct (place h a r) as [h1 n]. cbn [fst snd] in *.
    split; [unfold rs_add; rewrite map_app; cbn [map]; rewrite (KM h1), G1 by auto; reflexivity|].
    split; auto. split; auto. split; auto. split; auto.
    assert (SN : Some a = Some (AObj n) \/ length (hr h) <= n) by (destruct C1 as [ -> | [? ?]]; auto).
    split; [intros x I; apply in_app_or in I; destruct I as [I|[ <- |[]]]; auto|]. split; [apply Forall_app; auto|].
    intros ND NI. eapply Permutation_NoDup; [apply Permutation_cons_append|]. constructor; auto.
  - unfold rs_remove. destruct (check_index i (map (get_rule h) l)) as [k|e]; cbn [bind]; auto.
    split; [rewrite map_remove_nth; reflexivity|]. split; auto. split; [apply keeps_refl|]. split; auto. split; auto.
    split; [intros x I; left; eapply In_remove_nth; eauto|]. split; [rewrite Forall_forall in *; intros x I; apply F; eapply In_remove_nth; eauto|].
    intros ND _. apply NoDup_remove_nth; auto.
  - destruct (arg_value h a) as [r|e] eqn:E; cbn [bind]; auto. unfold rs_remove_rule.
    destruct (find_rule r (map (get_rule h) l)) as [k|e] eqn:EF; cbn [bind]; auto. unfold rs_remove. rewrite (find_then_index _ _ _ EF). cbn [bind].
    split; [rewrite map_remove_nth; reflexivity|]. split; auto. split; [apply keeps_refl|]. split; auto. split; auto.
    split; [intros x I; left; eapply In_remove_nth; eauto|]. split; [rewrite Forall_forall in *; intros x I; apply F; eapply In_remove_nth; eauto|].
    intros ND _. apply NoDup_remove_nth; auto.
  - unfold rs_insert. destruct (check_index i (map (get_rule h) l)) as [k|e] eqn:EC; cbn [bind]; auto.
    destruct (arg_value h a) as [r|e] eqn:E; cbn [bind]; auto. rewrite ?EC. cbn [bind].
    destruct (place_facts h a r W (AE a eq_refl) E) as (W1 & K1 & L1 & S1 & G1 & B1 & C1). destruct (place h a r) as [h1 n]. cbn [fst snd] in *.
    split; [rewrite map_app; cbn [map]; rewrite map_firstn', map_skipn', (KM h1), G1 by auto; reflexivity|].
    split; auto. split; auto. split; auto. split; auto.
    assert (SN : Some a = Some (AObj n) \/ length (hr h) <= n) by (destruct C1 as [ -> | [? ?]]; auto).
    split; [intros x I; apply In_insert in I; destruct I as [ -> | I]; auto|].
    split; [specialize (FW h1 K1); rewrite Forall_forall in *; intros x I; apply In_insert in I; destruct I as [ -> | I]; auto|].
    intros ND NI. apply NoDup_insert; auto.
  - destruct (arg_value h b) as [q|e] eqn:EB; cbn [bind]; auto. unfold rs_insert_rule.
    destruct (find_rule q (map (get_rule h) l)) as [k|e] eqn:EF; cbn [bind]; auto.
    destruct (arg_value h a) as [r|e] eqn:E; cbn [bind]; auto. rewrite ?EF. unfold rs_insert. cbn [bind]. rewrite (find_then_index _ _ _ EF). cbn [bind].
    destruct (place_facts h a r W (AE a eq_refl) E) as (W1 & K1 & L1 & S1 & G1 & B1 & C1). destruct (place h a r) as [h1 n]. cbn [fst snd] in *.
    split; [rewrite map_app; cbn [map]; rewrite map_firstn', map_skipn', (KM h1), G1 by auto; reflexivity|].
    split; auto. split; auto. split; auto. split; auto.
    assert (SN : Some a = Some (AObj n) \/ length (hr h) <= n) by (destruct C1 as [ -> | [? ?]]; auto).
    split; [intros x I; apply In_insert in I; destruct I as [ -> | I]; auto|].
    split; [specialize (FW h1 K1); rewrite Forall_forall in *; intros x I; apply In_insert in I; destruct I as [ -> | I]; auto|].
    intros ND NI. apply NoDup_insert; auto.
  - unfold rs_replace. destruct (check_index i (map (get_rule h) l)) as [k|e] eqn:EC; cbn [bind]; auto.
    destruct (arg_value h a) as [r|e] eqn:E; cbn [bind]; auto. rewrite ?EC. cbn [bind].
    destruct (place_facts h a r W (AE a eq_refl) E) as (W1 & K1 & L1 & S1 & G1 & B1 & C1). destruct (place h a r) as [h1 n]. cbn [fst snd] in *.
    split; [rewrite <- set_nth_map, (KM h1), G1 by auto; reflexivity|].
    split; auto. split; auto. split; auto. split; auto.
    assert (SN : Some a = Some (AObj n) \/ length (hr h) <= n) by (destruct C1 as [ -> | [? ?]]; auto).
    split; [intros x I; apply In_set_nth in I; destruct I as [ -> | I]; auto|].
    split; [specialize (FW h1 K1); rewrite Forall_forall in *; intros x I; apply In_set_nth in I; destruct I as [ -> | I]; auto|].
    intros ND NI. apply NoDup_set_nth; auto.
  - destruct (arg_value h b) as [q|e] eqn:EB; cbn [bind]; auto. unfold rs_replace_rule.
    destruct (find_rule q (map (get_rule h) l)) as [k|e] eqn:EF; cbn [bind]; auto.
    destruct (arg_value h a) as [r|e] eqn:E; cbn [bind]; auto. rewrite ?EF. unfold rs_replace. cbn [bind]. rewrite (find_then_index _ _ _ EF). cbn [bind].
    destruct (place_facts h a r W (AE a eq_refl) E) as (W1 & K1 & L1 & S1 & G1 & B1 & C1). destruct (place h a r) as [h1 n]. cbn [fst snd] in *.
    split; [rewrite <- set_nth_map, (KM h1), G1 by auto; reflexivity|].
    split; auto. split; auto. split; auto. split; auto.
    assert (SN : Some a = Some (AObj n) \/ length (hr h) <= n) by (destruct C1 as [ -> | [? ?]]; auto).
    split; [intros x I; apply In_set_nth in I; destruct I as [ -> | I]; auto|].
    split; [specialize (FW h1 K1); rewrite Forall_forall in *; intros x I; apply In_set_nth in I; destruct I as [ -> | I]; auto|].
    intros ND NI. apply NoDup_set_nth; auto.
Qed.

(** ** a change confined to one Ruleset object, its list and its rules *)
Record local_change (h h' : heap) (s : nat) (A : nat -> Prop) : Prop := mklocal {
  lc_wf : wf h'; lc_keeps : keeps h h' (eq s) (eq (o_list (get_obj h s))) (fun r => In r (refs h s));
  lc_list : o_list (get_obj h' s) = o_list (get_obj h s);
  lc_in : forall r, In r (refs h' s) -> In r (refs h s) \/ A r \/ length (hr h) <= r;
  lc_nd : NoDup (refs h' s) }.
Lemma local_refl h s A : wf h -> NoDup (refs h s) -> local_change h h s A.
Proof. intros. constructor; auto. apply keeps_refl. Qed.

Lemma edit_obj_facts h s ed : wf h -> s < length (hs h) -> NoDup (refs h s) -> (forall a, stored ed = Some a -> arg_exists h a) ->
  (forall r, stored ed = Some (AObj r) -> ~ In r (refs h s)) ->
  local_change h (fst (edit_obj h s ed)) s (fun r => stored ed = Some (AObj r))
  /\ match snd (edit_obj h s ed) with
     | Ok _ => vedit h ed (rs_rules (get_set h s)) = Ok (rs_rules (get_set (fst (edit_obj h s ed)) s))
               /\ get_obj (fst (edit_obj h s ed)) s = get_obj h s
     | Err e => vedit h ed (rs_rules (get_set h s)) = Err e /\ fst (edit_obj h s ed) = h
     end.
Proof.
  intros W V ND AE NI. unfold edit_obj. pose proof (edit_refs_facts h (refs h s) ed W (refs_bound h s W V) AE) as EF.
  unfold get_set. cbn [rs_rules]. destruct (edit_refs h (refs h s) ed) as [[h1 l1]|e]; cbn [fst snd].
  2:{ split; [apply local_refl; auto | auto]. }
  destruct EF as (VE & W1 & K1 & L1 & S1 & IN & FB & NDN).
  destruct (put_list_facts h1 (o_list (get_obj h s)) l1 W1 FB) as (W2 & K2).
  set (h2 := put_list h1 (o_list (get_obj h s)) l1) in *.
  assert (OB : get_obj h2 s = get_obj h s) by (unfold h2, put_list, get_obj; cbn [hs]; rewrite S1; reflexivity).
  assert (RF : refs h2 s = l1).
  { unfold refs. rewrite OB. unfold h2, put_list, get_list. cbn [hl]. apply nth_set_same. rewrite L1. apply W. exact V. }
  assert (K : keeps h h2 none (eq (o_list (get_obj h s))) none).
  { eapply keeps_trans; [|exact K2]. eapply keeps_weak; [| | |exact K1]; intros x []. }
  split.
  - constructor; auto.
    + eapply keeps_weak; [| | |exact K]; auto; intros x [].
    + rewrite OB. reflexivity.
    + rewrite RF. exact IN.
    + rewrite RF. auto.
  - split; auto. rewrite VE, RF. reflexivity.
Qed.

(** ** recalibrating *)
Lemma stats_conds alpha fr cf pc r x : rule_class_stats alpha fr cf pc r = Ok x -> conds x = conds r.
Proof. unfold rule_class_stats. intros H. binv H. binv H. binv H. injection H as <-. reflexivity. Qed.
Lemma mapM_stats alpha fr cf pc l : forall done,
  match stats_run alpha fr cf pc done l with
  | (l', Ok _) => exists l0, mapM (rule_class_stats alpha fr cf pc) l = Ok l0 /\ l' = done ++ l0
  | (_, Err e) => mapM (rule_class_stats alpha fr cf pc) l = Err e
  end.
Proof.
  induction l as [|r t IH]; intros done; cbn [stats_run mapM].
  - exists []. rewrite app_nil_r. auto.
  - destruct (rule_class_stats alpha fr cf pc r) as [x|e]; cbn [bind]; auto.
    specialize (IH (done ++ [x])). destruct (stats_run alpha fr cf pc (done ++ [x]) t) as [l' [u|e]].
    + destruct IH as (l0 & -> & ->). cbn [bind]. exists (x :: l0). rewrite <- app_assoc. auto.
    + rewrite IH. reflexivity.
Qed.
Lemma rule_covers_conds r r' fr : conds r = conds r' -> rule_covers r fr = rule_covers r' fr.
Proof. unfold rule_covers. intros ->. reflexivity. Qed.
Lemma rs_covers_conds l l' fr : map conds l = map conds l' -> rs_covers l fr = rs_covers l' fr.
Proof.
  intros M. unfold rs_covers.
  assert (U : rs_isuniversal l = rs_isuniversal l').
  { unfold rs_isuniversal. revert l' M. induction l as [|a l IH]; intros [|b l'] M; cbn in *; try discriminate; auto. injection M as M1 M2.
    unfold rule_isempty at 1 3. rewrite M1, (IH _ M2). reflexivity. }
  assert (N : rs_isnull l = rs_isnull l') by (destruct l, l'; cbn in *; try discriminate; reflexivity).
  assert (MM : mapM (fun r => rule_covers r fr) l = mapM (fun r => rule_covers r fr) l').
  { clear U N. revert l' M. induction l as [|a l IH]; intros [|b l'] M; cbn [mapM map] in *; try discriminate; auto. injection M as M1 M2.
    rewrite (rule_covers_conds a b fr M1). destruct (rule_covers b fr); cbn [bind]; auto. rewrite (IH _ M2). reflexivity. }
  rewrite U, N, MM. reflexivity.
Qed.
Lemma recal_rules_facts alpha fr cf pc l : forall h done, wf h -> NoDup l -> Forall (fun r => r < length (hr h)) l ->
  let h' := fst (recal_rules alpha fr cf pc h l) in
  wf h' /\ keeps h h' none none (fun r => In r l) /\ hl h' = hl h /\ hs h' = hs h
  /\ stats_run alpha fr cf pc done (map (get_rule h) l) = (done ++ map (get_rule h') l, snd (recal_rules alpha fr cf pc h l)).
Proof.
  induction l as [|r t IH]; intros h done W ND F; cbn [recal_rules].
  - cbn [fst snd map stats_run]. split; auto. split; [apply keeps_refl|]. rewrite app_nil_r. auto.
  - inversion ND as [|? ? ND1 ND2]; subst. inversion F as [|? ? F1 F2]; subst. cbn [map stats_run].
    destruct (rule_class_stats alpha fr cf pc (get_rule h r)) as [x|e]; cbn [fst snd].
    2:{ split; auto. split; [apply keeps_refl|]. auto. }
    destruct (put_rule_facts h r x W) as (W1 & K1).
    specialize (IH (put_rule h r x) (done ++ [x]) W1 ND2 ltac:(unfold put_rule; cbn [hr]; rewrite set_nth_length; auto)).
    destruct IH as (W2 & K2 & L2 & S2 & R2). cbv zeta in *. split; auto. split.
    { eapply keeps_trans; [eapply keeps_weak; [| | |exact K1] | eapply keeps_weak; [| | |exact K2]]; cbn; auto. }
    split; auto. split; auto.
    replace (map (get_rule h) t) with (map (get_rule (put_rule h r x)) t).
    2:{ apply map_ext_in. intros a I. apply (k_r _ _ _ _ _ K1); [rewrite Forall_forall in F2; auto | congruence]. }
    rewrite R2. f_equal. rewrite <- app_assoc. cbn [app]. f_equal. f_equal.
    rewrite (k_r _ _ _ _ _ K2); auto; [|unfold put_rule; cbn [hr]; rewrite set_nth_length; auto].
    unfold get_rule, put_rule. cbn [hr]. symmetry. apply nth_set_same. auto.
Qed.

Lemma recal_obj_facts ms rm alpha h s fr cf pc : wf h -> s < length (hs h) -> NoDup (refs h s) ->
  local_change h (fst (recal_obj alpha h s fr cf pc)) s none
  /\ recalibrate_run ms rm alpha (get_set h s) fr cf pc = (get_set (fst (recal_obj alpha h s fr cf pc)) s, snd (recal_obj alpha h s fr cf pc)).
Proof.
  intros W V ND. unfold recal_obj, recalibrate_run. rewrite recalibrate_min_eq.
  destruct (check_features fr (selected_features (rs_rules (get_set h s)))) as [u0|e] eqn:EC; cbn [fst snd].
  2:{ split; [apply local_refl; auto | reflexivity]. }
  unfold recalibrate. rewrite EC. cbn [bind].
  destruct (recal_rules_facts alpha fr cf pc (refs h s) h [] W ND (refs_bound h s W V)) as (W1 & K1 & L1 & S1 & R1). cbv zeta in *.
  destruct (recal_rules alpha fr cf pc h (refs h s)) as [h1 o] eqn:ER. cbn [fst snd] in *.
  assert (OB : get_obj h1 s = get_obj h s) by (unfold get_obj; rewrite S1; reflexivity).
  assert (RF : refs h1 s = refs h s) by (unfold refs, get_list; rewrite OB, L1; reflexivity).
  assert (GS : get_set h1 s = set_rules (get_set h s) (map (get_rule h1) (refs h s))).
  { unfold get_set, set_rules. cbn [rs_possible rs_uncov]. rewrite RF, OB. reflexivity. }
  assert (LC : local_change h h1 s none).
  { constructor; auto.
    - eapply keeps_weak; [| | |exact K1]; auto; intros x [].
    - rewrite OB; reflexivity.
    - rewrite RF. auto.
    - rewrite RF. auto. }
  change (map (get_rule h) (refs h s)) with (rs_rules (get_set h s)) in R1. cbn [app] in R1.
  pose proof (mapM_stats alpha fr cf pc (rs_rules (get_set h s)) []) as MS. rewrite R1 in MS.
  assert (MC : map conds (map (get_rule h1) (refs h s)) = map conds (rs_rules (get_set h s))).
  { pose proof (stats_run_conds alpha fr cf pc (rs_rules (get_set h s)) []) as Q. rewrite R1 in Q. cbn [fst app] in Q. exact Q. }
  destruct o as [u|e]; cbn [fst snd].
  2:{ split; auto. rewrite MS. cbn [bind]. rewrite R1. cbn [fst]. rewrite GS. reflexivity. }
  destruct MS as (l0 & M0 & EQ). cbn [app] in EQ. subst l0. rewrite M0. cbn [bind].
  rewrite (rs_covers_conds (rs_rules (get_set h1 s)) (rs_rules (get_set h s)) fr)
    by (rewrite GS; cbn [rs_rules set_rules]; exact MC).
  destruct (rs_covers (rs_rules (get_set h s)) fr) as [c|e]; cbn [bind fst snd].
  2:{ split; auto. rewrite R1. cbn [fst]. rewrite GS. reflexivity. }
  cbv zeta. destruct (num_neg _ cf pc) as [tn|e]; cbn [bind fst snd].
  2:{ split; auto. rewrite R1. cbn [fst]. rewrite GS. reflexivity. }
  destruct (smoothed alpha tn _) as [sm|e]; cbn [bind fst snd].
  2:{ split; auto. rewrite R1. cbn [fst]. rewrite GS. reflexivity. }
  set (u1 := mkstats _ _ _).
  assert (OL : o_list (mkrsobj (o_list (get_obj h1 s)) (o_possible (get_obj h1 s)) (Some u1)) < length (hl h1)).
  { cbn [o_list]. rewrite OB, L1. apply W. exact V. }
  destruct (put_obj_facts h1 s _ W1 OL) as (W2 & K2).
  assert (OB2 : get_obj (put_obj h1 s (mkrsobj (o_list (get_obj h1 s)) (o_possible (get_obj h1 s)) (Some u1))) s
     = mkrsobj (o_list (get_obj h s)) (o_possible (get_obj h s)) (Some u1)).
  { unfold put_obj at 1. unfold get_obj at 1. cbn [hs]. rewrite nth_set_same by (rewrite S1; exact V). rewrite OB. reflexivity. }
  set (h2 := put_obj h1 s _) in *.
  assert (RF2 : refs h2 s = refs h s).
  { unfold refs. rewrite OB2. cbn [o_list]. unfold h2, put_obj, get_list. cbn [hl]. rewrite L1. reflexivity. }
  split.
  - constructor; auto.
    + eapply keeps_trans; [apply (lc_keeps _ _ _ _ LC)|]. eapply keeps_weak; [| | |exact K2]; auto; intros x [].
    + rewrite OB2. reflexivity.
    + rewrite RF2. auto.
    + rewrite RF2. auto.
  - f_equal. unfold get_set at 2. rewrite OB2, RF2. cbn [o_possible o_uncov]. reflexivity.
Qed.

(** ** the invariant: the models own disjoint objects *)
Definition ref_at (st : mstate) (m : nat) : option nat := match nth_error (models st) m with Some e => ref_of e | None => None end.
Record inv (st : mstate) : Prop := mkinv {
  i_wf : wf (heap_ st);
  i_own : forall m s, ref_at st m = Some s -> s < length (hs (heap_ st)) /\ NoDup (refs (heap_ st) s);
  i_apart : forall m m' s s', m <> m' -> ref_at st m = Some s -> ref_at st m' = Some s' ->
    s <> s' /\ o_list (get_obj (heap_ st) s) <> o_list (get_obj (heap_ st) s') /\ forall r, In r (refs (heap_ st) s) -> ~ In r (refs (heap_ st) s') }.

(** models other than [m0] are left alone *)
Definition others (st st' : mstate) (m0 : option nat) : Prop :=
  forall m, m0 <> Some m -> m < length (models st) -> nth_error (model_views st') m = nth_error (model_views st) m.
Definition stable (st st' : mstate) (m0 : option nat) : Prop :=
  forall m, m0 <> Some m -> m < length (models st) ->
    nth_error (models st') m = nth_error (models st) m /\
    forall s, ref_at st m = Some s -> get_obj (heap_ st') s = get_obj (heap_ st) s /\ refs (heap_ st') s = refs (heap_ st) s
      /\ get_set (heap_ st') s = get_set (heap_ st) s.
Lemma nth_error_mviews st m : nth_error (model_views st) m = option_map (view (heap_ st)) (nth_error (models st) m).
Proof. unfold model_views. apply nth_error_map. Qed.
Lemma stable_others st st' m0 : stable st st' m0 -> others st st' m0.
Proof.
  intros S m N L. destruct (S m N L) as (EN & ES). rewrite !nth_error_mviews, EN. unfold ref_at in ES.
  destruct (nth_error (models st) m) as [e|]; cbn [option_map]; auto. f_equal. destruct e as [o a|s]; cbn [view ref_of] in *.
  - unfold clf_view. destruct o as [s|]; cbn [option_map]; auto. destruct (ES s eq_refl) as (_ & _ & ->). reflexivity.
  - destruct (ES s eq_refl) as (_ & _ & ->). reflexivity.
Qed.

Lemma inv_general st st' m0 : inv st -> wf (heap_ st') -> length (hs (heap_ st)) <= length (hs (heap_ st')) -> stable st st' (Some m0) ->
  (forall m, m <> m0 -> length (models st) <= m -> ref_at st' m = None) ->
  (forall s, ref_at st' m0 = Some s -> s < length (hs (heap_ st')) /\ NoDup (refs (heap_ st') s) /\
     forall m s', m <> m0 -> ref_at st m = Some s' ->
       s <> s' /\ o_list (get_obj (heap_ st') s) <> o_list (get_obj (heap_ st) s') /\ forall r, In r (refs (heap_ st') s) -> ~ In r (refs (heap_ st) s')) ->
  inv st'.
Proof.
  intros I W LS ST NEW OWN.
  assert (OLD : forall m s, m <> m0 -> ref_at st' m = Some s -> ref_at st m = Some s /\ get_obj (heap_ st') s = get_obj (heap_ st) s /\ refs (heap_ st') s = refs (heap_ st) s).
  { intros m s N R. destruct (Nat.lt_ge_cases m (length (models st))) as [L|G]; [|rewrite NEW in R by auto; discriminate].
    destruct (ST m ltac:(congruence) L) as (EN & ES). unfold ref_at in R. rewrite EN in R. fold (ref_at st m) in R. split; auto. destruct (ES s R) as (A & B & _). auto. }
  constructor; auto.
  - intros m s R. destruct (Nat.eq_dec m m0) as [ -> | N].
    + destruct (OWN s R) as (A & B & _). auto.
    + destruct (OLD m s N R) as (R0 & _ & RF). rewrite RF. destruct (i_own _ I m s R0) as [A B]. split; auto. lia.
  - intros m m' s s' N R R'.
    destruct (Nat.eq_dec m m0) as [ -> | N1]; destruct (Nat.eq_dec m' m0) as [ -> | N2]; try congruence.
    + destruct (OWN s R) as (_ & _ & A). destruct (OLD m' s' N2 R') as (R0 & O0 & F0). rewrite O0, F0. apply (A m' s'); auto.
    + destruct (OWN s' R') as (_ & _ & A). destruct (OLD m s N1 R) as (R0 & O0 & F0). rewrite O0, F0. destruct (A m s) as (A1 & A2 & A3); auto.
      repeat split; auto. intros r I1 I2. apply (A3 r); auto.
    + destruct (OLD m s N1 R) as (R0 & O0 & F0). destruct (OLD m' s' N2 R') as (R1 & O1 & F1). rewrite O0, F0, O1, F1. apply (i_apart _ I m m'); auto.
Qed.

Lemma ref_at_lt st m s : ref_at st m = Some s -> m < length (models st).
Proof. unfold ref_at. destruct (nth_error (models st) m) eqn:E; [intros _; apply nth_error_Some; congruence | discriminate]. Qed.

Lemma local_step st m s h' A : inv st -> ref_at st m = Some s -> local_change (heap_ st) h' s A ->
  (forall r m' s', A r -> m' <> m -> ref_at st m' = Some s' -> ~ In r (refs (heap_ st) s')) ->
  inv (mkstate h' (models st)) /\ stable st (mkstate h' (models st)) (Some m).
Proof.
  intros I R LC NA. destruct (i_own _ I m s R) as (V & ND).
  assert (ST : stable st (mkstate h' (models st)) (Some m)).
  { intros m' N L. split; auto. intros s' R'. destruct (i_apart _ I m m' s s') as (A1 & A2 & A3); try congruence.
    apply (keeps_set _ _ _ _ _ s' (i_wf _ I) (lc_keeps _ _ _ _ LC)); auto. apply (i_own _ I m'); auto. intros r I1 I2. apply (A3 r); auto. }
  split; auto. apply (inv_general st _ m); cbn [heap_ models]; auto.
  - apply (lc_wf _ _ _ _ LC).
  - apply (k_ls _ _ _ _ _ (lc_keeps _ _ _ _ LC)).
  - intros m' N G. unfold ref_at. cbn [models set_model add_model]. rewrite (proj2 (nth_error_None _ _) G). reflexivity.
  - intros s0 R0. replace (ref_at (mkstate h' (models st)) m) with (ref_at st m) in R0 by reflexivity. rewrite R in R0. injection R0 as <-.
    split; [pose proof (k_ls _ _ _ _ _ (lc_keeps _ _ _ _ LC)); lia|]. split; [apply (lc_nd _ _ _ _ LC)|].
    intros m' s' N R'. destruct (i_apart _ I m m' s s') as (A1 & A2 & A3); auto. split; auto. split; [rewrite (lc_list _ _ _ _ LC); auto|].
    intros r I1 I2. destruct (lc_in _ _ _ _ LC r I1) as [Q | [Q | Q]].
    + apply (A3 r); auto.
    + apply (NA r m' s'); auto.
    + pose proof (refs_bound _ s' (i_wf _ I) (proj1 (i_own _ I m' s' R'))) as FB. rewrite Forall_forall in FB. specialize (FB r I2). lia.
Qed.

Lemma stable_keeps st h' ms' m0 : inv st -> keeps (heap_ st) h' none none none ->
  (forall m, m0 <> Some m -> m < length (models st) -> nth_error ms' m = nth_error (models st) m) -> stable st (mkstate h' ms') m0.
Proof.
  intros I K NM m N L. split; [apply NM; auto|]. intros s R. cbn [heap_]. apply (keeps_set _ _ _ _ _ s (i_wf _ I) K); auto; try (intros []).
  apply (i_own _ I m); auto.
Qed.

Lemma set_nth_beyond {A} m (x : A) l : length l <= m -> set_nth m x l = l.
Proof. revert m; induction l as [|a l IH]; intros [|m] H; cbn in *; auto; try lia. f_equal. apply IH. lia. Qed.

(** the target gets a new Ruleset object *)
Lemma fresh_step st m e h' s x : inv st -> m < length (models st) -> fresh_set (heap_ st) h' s x -> ref_of e = Some s ->
  inv (set_model st h' m e) /\ stable st (set_model st h' m e) (Some m).
Proof.
  intros I L FS RE.
  assert (ST : stable st (set_model st h' m e) (Some m)).
  { unfold set_model. apply stable_keeps; auto. apply (f_keeps _ _ _ _ FS). intros m' N _. apply set_nth_other. congruence. }
  split; auto. apply (inv_general st _ m); cbn [heap_ models set_model]; auto.
  - apply (f_wf _ _ _ _ FS).
  - apply (k_ls _ _ _ _ _ (f_keeps _ _ _ _ FS)).
  - intros m' N G. unfold ref_at. cbn [models set_model add_model]. rewrite (proj2 (nth_error_None _ _)); auto. rewrite set_nth_length. auto.
  - intros s0 R0. unfold ref_at in R0. cbn [models set_model add_model] in R0. rewrite set_nth_same in R0 by auto. rewrite RE in R0. injection R0 as <-.
    destruct FS as [F1 F2 F3 F4 F5 F6 F7]. split; [lia|]. split; auto. intros m' s' N R'. destruct (i_own _ I m' s' R') as (V' & _).
    split; [lia|]. split; [pose proof (proj1 (i_wf _ I) s' V'); lia|]. intros r I1 I2. specialize (F5 r I1).
    pose proof (refs_bound _ s' (i_wf _ I) V') as FB. rewrite Forall_forall in FB. specialize (FB r I2). lia.
Qed.
(** a further model with a new Ruleset object *)
Lemma fresh_add st e h' s x : inv st -> fresh_set (heap_ st) h' s x -> ref_of e = Some s ->
  inv (add_model st h' e) /\ stable st (add_model st h' e) None.
Proof.
  intros I FS RE.
  assert (ST : stable st (add_model st h' e) None).
  { unfold add_model. apply stable_keeps; auto. apply (f_keeps _ _ _ _ FS). intros m' N L. apply nth_error_app1; auto. }
  split; auto. apply (inv_general st _ (length (models st))); cbn [heap_ models add_model]; auto.
  - apply (f_wf _ _ _ _ FS).
  - apply (k_ls _ _ _ _ _ (f_keeps _ _ _ _ FS)).
  - intros m' N L. apply ST; auto. discriminate.
  - intros m' N G. unfold ref_at. cbn [models set_model add_model]. rewrite (proj2 (nth_error_None _ _)); auto. rewrite app_length. cbn [length]. lia.
  - intros s0 R0. unfold ref_at in R0. cbn [models set_model add_model] in R0. rewrite nth_error_app2, Nat.sub_diag in R0 by lia. cbn in R0. rewrite RE in R0. injection R0 as <-.
    destruct FS as [F1 F2 F3 F4 F5 F6 F7]. split; [lia|]. split; auto. intros m' s' N R'. destruct (i_own _ I m' s' R') as (V' & _).
    split; [lia|]. split; [pose proof (proj1 (i_wf _ I) s' V'); lia|]. intros r I1 I2. specialize (F5 r I1).
    pose proof (refs_bound _ s' (i_wf _ I) V') as FB. rewrite Forall_forall in FB. specialize (FB r I2). lia.
Qed.
(** the target's attributes change, its Ruleset object does not *)
Lemma attrs_step st m e : inv st -> ref_of e = ref_at st m -> inv (set_model st (heap_ st) m e) /\ stable st (set_model st (heap_ st) m e) (Some m).
Proof.
  intros I RE.
  assert (ST : stable st (set_model st (heap_ st) m e) (Some m)).
  { unfold set_model. apply stable_keeps; auto. apply keeps_refl. intros m' N _. apply set_nth_other. congruence. }
  assert (RA : forall m', ref_at (set_model st (heap_ st) m e) m' = ref_at st m').
  { intros m'. unfold ref_at at 1. cbn [models set_model]. destruct (Nat.eq_dec m m') as [ <- | N].
    - destruct (Nat.lt_ge_cases m (length (models st))) as [L|G]; [rewrite set_nth_same by auto; auto|]. rewrite set_nth_beyond by auto. reflexivity.
    - rewrite set_nth_other by auto. reflexivity. }
  split; auto. destruct I as [I1 I2 I3]. constructor; cbn [heap_ set_model]; auto.
  - intros m' s. rewrite RA. apply I2.
  - intros m1 m2 s1 s2. rewrite !RA. apply I3.
Qed.
Lemma add_bare st a : inv st -> inv (add_model st (heap_ st) (EClf None a)) /\ stable st (add_model st (heap_ st) (EClf None a)) None.
Proof.
  intros I.
  assert (ST : stable st (add_model st (heap_ st) (EClf None a)) None).
  { unfold add_model. apply stable_keeps; auto. apply keeps_refl. intros m' N L. apply nth_error_app1; auto. }
  split; auto. apply (inv_general st _ (length (models st))); cbn [heap_ models add_model]; auto.
  - apply (i_wf _ I).
  - intros m' N L. apply ST; auto. discriminate.
  - intros m' N G. unfold ref_at. cbn [models set_model add_model]. rewrite (proj2 (nth_error_None _ _)); auto. rewrite app_length. cbn [length]. lia.
  - intros s0 R0. unfold ref_at in R0. cbn [models set_model add_model] in R0. rewrite nth_error_app2, Nat.sub_diag in R0 by lia. cbn in R0. discriminate.
Qed.
Lemma new_rule_step st r : inv st -> inv (mkstate (fst (new_rule (heap_ st) r)) (models st)) /\ stable st (mkstate (fst (new_rule (heap_ st) r)) (models st)) None.
Proof.
  intros I. destruct (new_rule_facts (heap_ st) r (i_wf _ I)) as (W1 & K1 & G1 & L1 & S1 & N1 & LN).
  assert (ST : stable st (mkstate (fst (new_rule (heap_ st) r)) (models st)) None) by (apply stable_keeps; auto).
  split; auto. apply (inv_general st _ (length (models st))); cbn [heap_ models]; auto.
  - intros m' N L. apply ST; auto. discriminate.
  - intros m' N G. unfold ref_at. cbn [models set_model add_model]. rewrite (proj2 (nth_error_None _ _)); auto.
  - intros s0 R0. unfold ref_at in R0. cbn [models set_model add_model] in R0. rewrite (proj2 (nth_error_None _ _)) in R0 by auto. discriminate.
Qed.
(** a Ruleset made by the user from Rule objects that no model contains *)
Lemma new_set_step st l : inv st -> NoDup l -> (forall r, In r l -> ~ in_use st r) -> Forall (fun r => r < length (hr (heap_ st))) l ->
  let hn := new_obj (heap_ st) l None None in
  inv (add_model st (fst hn) (ESet (snd hn))) /\ stable st (add_model st (fst hn) (ESet (snd hn))) None
  /\ get_set (fst hn) (snd hn) = Ruleset_ (map (get_rule (heap_ st)) l).
Proof.
  intros I ND NU FB. destruct (new_obj_facts (heap_ st) l None None (i_wf _ I) FB) as (A & B & C & D & E & F & G & H). cbv zeta in *.
  assert (ST : stable st (add_model st (fst (new_obj (heap_ st) l None None)) (ESet (snd (new_obj (heap_ st) l None None)))) None).
  { unfold add_model. apply stable_keeps; auto. intros m' N L. apply nth_error_app1; auto. }
  split; [|split]; auto. apply (inv_general st _ (length (models st))); cbn [heap_ models add_model]; auto.
  - apply (k_ls _ _ _ _ _ B).
  - intros m' N L. apply ST; auto. discriminate.
  - intros m' N GG. unfold ref_at. cbn [models set_model add_model]. rewrite (proj2 (nth_error_None _ _)); auto. rewrite app_length. cbn [length]. lia.
  - intros s0 R0. unfold ref_at in R0. cbn [models set_model add_model] in R0. rewrite nth_error_app2, Nat.sub_diag in R0 by lia. cbn [nth_error ref_of] in R0. apply (f_equal (fun o => match o with Some n => n | None => s0 end)) in R0. cbv beta iota in R0. subst s0.
    split; auto. rewrite F. split; auto. intros m' s' N R'. destruct (i_own _ I m' s' R') as (V' & _).
    split; [lia|]. split; [pose proof (proj1 (i_wf _ I) s' V'); lia|]. intros r I1 I2. apply (NU r I1).
    unfold ref_at in R'. destruct (nth_error (models st) m') as [e|] eqn:EN; [|discriminate]. exists m', e, s'. auto.
Qed.

(** ** one step *)
Lemma with_rs_same cl o : c_rs cl = o -> with_rs cl o = cl.
Proof. intros <-. destruct cl; reflexivity. Qed.
Lemma view_new h s x cl : get_set h s = x -> c_rs cl = Some x -> clf_view h (Some s) cl = cl.
Proof. intros E R. unfold clf_view. cbn [option_map]. rewrite E. apply with_rs_same; auto. Qed.
Lemma ensure_bt_rs cl : c_rs (fst (ensure_bt cl)) = c_rs cl.
Proof. unfold ensure_bt. destruct (c_bt cl); [reflexivity|]. destruct (c_rs cl) eqn:E; cbn [fst c_rs set_bt]; auto. Qed.
Lemma predict_rs cl X n : c_rs (fst (clf_predict cl X n)) = c_rs cl.
Proof. unfold clf_predict. destruct (c_rs cl) eqn:E; [|auto]. pose proof (ensure_bt_rs cl). destruct (ensure_bt cl). cbn [fst] in *. congruence. Qed.
Lemma plain_rs w cl k : plain_call k = true -> c_rs (fst (perform w cl k)) = c_rs cl.
Proof.
  destruct k; cbn [plain_call perform]; intros H; try discriminate.
  - pose proof (predict_rs cl X names). destruct (clf_predict cl X names). auto.
  - unfold clf_predict_reasons. destruct (c_rs cl) eqn:E; [|auto]. pose proof (ensure_bt_rs cl). destruct (ensure_bt cl). cbn [fst] in *. congruence.
  - unfold clf_predict_proba. destruct (c_rs cl) eqn:E; [|auto]. destruct (bind _ _) as [[df p]|e]; cbn [fst c_rs set_classes]; auto.
  - unfold clf_score. pose proof (predict_rs cl X None). destruct (clf_predict cl X None). auto.
  - unfold clf_rule_stats. destruct (c_rs cl) eqn:E; [|auto]. pose proof (ensure_bt_rs cl). destruct (ensure_bt cl). cbn [fst] in *. congruence.
  - reflexivity.
Qed.
Lemma fit_params_rs cl kw : c_rs (set_fit_params cl kw) = c_rs cl.
Proof. reflexivity. Qed.
Lemma recal_rs cl X y n ms rm d : c_rs cl <> None -> c_rs (fst (clf_recalibrate cl X y n ms rm d)) <> None.
Proof.
  intros H. unfold clf_recalibrate. destruct (c_cf cl); [|auto]. destruct (c_pc cl); [|auto]. destruct (if d then _ else _); [|auto].
  destruct (preprocess_recalibrate _ _ _ _ _); [|auto]. destruct (c_rs cl); [|congruence]. destruct (recalibrate_run _ _ _ _ _ _ _). cbn. discriminate.
Qed.
Lemma fit_trains w cl X y cf pc names init cnopt kw cl' r :
  fit w cl X y cf pc names init cnopt kw = (cl', r) -> (c_alg cl = IREP_ -> exists x, irep_start init = Ok x) ->
  trains w (set_fit_params cl kw) X y cf pc names init cnopt = true -> exists x, c_rs cl' = Some x.
Proof.
  intros H ST T. unfold fit in H. unfold trains in T.
  assert (AL : c_alg (set_fit_params cl kw) = c_alg cl) by reflexivity. rewrite AL in T.
  assert (NN : c_rs cl' <> None -> exists x, c_rs cl' = Some x) by (destruct (c_rs cl'); [eauto|congruence]). apply NN.
  destruct (c_alg cl).
  - destruct (ST eq_refl) as (x0 & E0). rewrite E0 in H. unfold irep_fit in H. rewrite E0 in H.
    destruct (preprocess_training _ _ _ _ _ _ _) as [[[[df f] p] bt]|e]; [|discriminate].
    destruct (frommodel init) as [xi|e]; [|discriminate]. cbn [bind] in H.
    destruct (irep_train _ _ _ _ _ _ _) as [x1|e]; [|discriminate].
    destruct (cols_without df f) as [feats|e]; [|injection H as <- _; cbn; discriminate].
    match type of H with context [clf_recalibrate ?a ?b ?c ?d ?e ?f ?g] => pose proof (recal_rs a b c d e f g ltac:(cbn; discriminate)) as NR; destruct (clf_recalibrate a b c d e f g) as [c5 [u|e5]] end; cbn [fst] in NR.
    + cbn [c_rs set_classes] in H. destruct (c_rs c5); [|congruence]. injection H as <- _. cbn. discriminate.
    + injection H as <- _. exact NR.
  - unfold ripper_fit in H.
    destruct (preprocess_training _ _ _ _ _ _ _) as [[[[df f] p] bt]|e]; [|discriminate].
    destruct (frommodel init) as [xi|e]; [|discriminate].
    destruct (ripper_trace _ _ _ _ _ _ _) as [[xl|] o]; cbn [fst] in T; [|discriminate].
    destruct o as [x1|e]; [|injection H as <- _; cbn; discriminate].
    destruct (cols_without df f) as [feats|e]; [|injection H as <- _; cbn; discriminate].
    match type of H with context [clf_recalibrate ?a ?b ?c ?d ?e ?f ?g] => pose proof (recal_rs a b c d e f g ltac:(cbn; discriminate)) as NR; destruct (clf_recalibrate a b c d e f g) as [c5 [u|e5]] end; cbn [fst] in NR;
    injection H as <- _; exact NR.
Qed.
Lemma fit_untrained w cl X y cf pc names init cnopt kw cl' r :
  fit w cl X y cf pc names init cnopt kw = (cl', r) ->
  trains w (set_fit_params cl kw) X y cf pc names init cnopt = false ->
  failure r <> None /\ match c_alg cl with IREP_ => forall x, irep_start init = Ok x -> c_rs cl' = Some x | RIPPER_ => c_rs cl' = c_rs cl end.
Proof.
  intros H T. unfold fit in H. unfold trains in T.
  assert (AL : c_alg (set_fit_params cl kw) = c_alg cl) by reflexivity. rewrite AL in T.
  destruct (c_alg cl).
  - destruct (irep_start init) as [x0|e0] eqn:E0; [|injection H as <- <-; split; [discriminate|intros x Hx; discriminate]].
    unfold irep_fit in H. rewrite E0 in H.
    destruct (preprocess_training _ _ _ _ _ _ _) as [[[[df f] p] bt]|e]; [|injection H as <- <-; split; [discriminate | intros x Hx; injection Hx as <-; reflexivity]].
    destruct (frommodel init) as [xi|e]; cbn [bind] in H; [|injection H as <- <-; split; [discriminate | intros x Hx; injection Hx as <-; reflexivity]].
    destruct (irep_train _ _ _ _ _ _ _) as [x1|e]; [discriminate|]. injection H as <- <-; split; [discriminate | intros x Hx; injection Hx as <-; reflexivity].
  - unfold ripper_fit in H.
    destruct (preprocess_training _ _ _ _ _ _ _) as [[[[df f] p] bt]|e]; [|injection H as <- <-; split; [discriminate | reflexivity]].
    destruct (frommodel init) as [xi|e]; [|injection H as <- <-; split; [discriminate | reflexivity]].
    pose proof (ripper_trace_left (w_env w) (c_hyper (set_fit_params cl kw)) cnopt df f p xi) as LF.
    destruct (ripper_trace _ _ _ _ _ _ _) as [[xl|] o]; cbn [fst snd] in T, LF; [discriminate|].
    destruct o as [x1|e]; [specialize (LF x1 eq_refl); discriminate|]. injection H as <- <-; split; [discriminate | reflexivity].
Qed.

Lemma h_frommodel_facts st hm : inv st ->
  match h_frommodel st hm with
  | Err e => frommodel (resolve st hm) = Err e
  | Ok (h1, s) => exists x, frommodel (resolve st hm) = Ok x /\ fresh_set (heap_ st) h1 s x
  end.
Proof.
  intros I. unfold h_frommodel. destruct (frommodel (resolve st hm)) as [x|e] eqn:E; cbn [bind]; auto.
  assert (NW : fresh_set (heap_ st) (fst (new_set (heap_ st) x)) (snd (new_set (heap_ st) x)) x) by (apply new_set_facts; apply (i_wf _ I)).
  destruct (falsy (resolve st hm)) eqn:F; [destruct (new_set (heap_ st) x); exists x; auto|].
  destruct (model_ref st hm) as [s|] eqn:M; [|destruct (new_set (heap_ st) x); exists x; auto].
  destruct hm as [v|k|l]; cbn [model_ref resolve] in *; try discriminate.
  fold (ref_at st k) in M. destruct (i_own _ I k s M) as (V & ND). unfold ref_at in M.
  pose proof (copy_set_facts (heap_ st) s (i_wf _ I) V ND) as C. destruct (copy_set (heap_ st) s) as [h1 s1]. exists (get_set (heap_ st) s). cbn [fst snd] in C. split; auto.
  unfold frommodel in E. rewrite F in E. destruct (nth_error (models st) k) as [[o a|s0]|]; cbn [ref_of] in M; [| |discriminate].
  - subst o. cbn [option_map attr] in E. congruence.
  - injection M as ->. congruence.
Qed.
