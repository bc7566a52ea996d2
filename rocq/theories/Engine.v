(** * Engine.v : both engines (CatNap labels, DataFrame rows) as instances of one generic learner, and its facts.
    Proof machinery only: the property theorems are about the definitions of Learn.v, Irep.v, Ripper.v. *)
From Verif Require Export Ripper GainFacts.

Section Eng.
Context {E : Type} (cs : cond -> E -> bool).
Definition gsat (r : rule) (i : E) : bool := forallb (fun c => cs c i) (conds r).
Definition gcov (r : rule) (l : list E) : list E := filter (gsat r) l.
Definition ggain (r s : rule) (pos neg : list E) : Q :=
  gain2 (length (gcov r pos)) (length (gcov r neg)) (length (gcov s pos)) (length (gcov s neg)).
Definition gsucc (cands : rule -> list cond) (r : rule) (pos neg : list E) : option rule :=
  best_succ_scan (fun s => ggain r s pos neg) 1 None (map (fun c => Rule_ (conds r ++ [c])) (cands r)).
Fixpoint ggrow (fuel : nat) (cands : rule -> list cond) (pos neg : list E) (mc ms : option Z) (r : rule) : res rule :=
  match fuel with
  | O => Err OutOfFuel
  | S k =>
      let nneg := length (gcov r neg) in
      if nneg =? 0 then Ok r
      else if user_halt (length (conds r)) nneg (length (gcov r pos)) mc ms then Ok (halted_rule ms r)
      else match gsucc cands r pos neg with
           | None => Ok r
           | Some r1 => ggrow k cands pos neg mc ms r1
           end
  end.

Lemma gsat_app a b i : gsat (Rule_ (a ++ b)) i = gsat (Rule_ a) i && gsat (Rule_ b) i.
Proof. unfold gsat. cbn [conds Rule_]. apply forallb_app. Qed.
Lemma gsat_conds r s i : conds r = conds s -> gsat r i = gsat s i.
Proof. unfold gsat. intros ->. reflexivity. Qed.
Lemma gcov_conds r s l : conds r = conds s -> gcov r l = gcov s l.
Proof. intros H. apply filter_ext. intros. apply gsat_conds; auto. Qed.
Lemma gcov_empty l : gcov (Rule_ []) l = l.
Proof. apply filter_all. intros; reflexivity. Qed.
Lemma gcov_empty' r l : conds r = [] -> gcov r l = l.
Proof. intros H. rewrite (gcov_conds r (Rule_ [])) by auto. apply gcov_empty. Qed.
Lemma gcov_incl r l : incl (gcov r l) l.
Proof. intros i H. apply filter_In in H. tauto. Qed.
Lemma gcov_step a c l : gcov (Rule_ (a ++ [c])) l = filter (cs c) (gcov (Rule_ a) l).
Proof.
  unfold gcov. rewrite filter_filter. apply filter_ext. intros i. rewrite gsat_app. unfold gsat at 2. cbn.
  rewrite Bool.andb_true_r. try reflexivity; apply Bool.andb_comm.
Qed.
Lemma gcov_app_le a b l : length (gcov (Rule_ (a ++ b)) l) <= length (gcov (Rule_ a) l).
Proof. apply filter_length_mono. intros i _. rewrite gsat_app. intros H. apply andb_prop in H. tauto. Qed.
Lemma gcov_app_In a b l i : In i (gcov (Rule_ (a ++ b)) l) -> In i (gcov (Rule_ a) l).
Proof.
  unfold gcov. rewrite !filter_In, gsat_app. intros [H1 H2]. apply andb_prop in H2. tauto.
Qed.
Lemma gcov_prefix_In r s l i : prefix (conds s) (conds r) -> In i (gcov r l) -> In i (gcov s l).
Proof.
  intros [b H] I. rewrite (gcov_conds s (Rule_ (conds s))) by auto. apply gcov_app_In with (b := b).
  rewrite <- H. rewrite (gcov_conds (Rule_ (conds r)) r); auto.
Qed.

Lemma gsucc_Some cands r pos neg r1 : gsucc cands r pos neg = Some r1 ->
  exists a c b, cands r = a ++ c :: b /\ r1 = Rule_ (conds r ++ [c]) /\ (1 < ggain r r1 pos neg)%Q /\
    (forall d, In d a -> (ggain r (Rule_ (conds r ++ [d])) pos neg < ggain r r1 pos neg)%Q) /\
    (forall d, In d b -> (ggain r (Rule_ (conds r ++ [d])) pos neg <= ggain r r1 pos neg)%Q).
Proof.
  intros H. unfold gsucc in H.
  destruct (succ_scan_spec (fun s => ggain r s pos neg) (map (fun c => Rule_ (conds r ++ [c])) (cands r)) 1%Q None)
    as [[H1 H2]|(a & s & b & Ea & H1 & H2 & H3 & H4)]; [congruence|].
  assert (s = r1) by congruence. subst s.
  apply map_eq_app in Ea. destruct Ea as (ca & cb & E1 & E2 & E3).
  destruct cb as [|c cb]; [discriminate|]. cbn in E3. injection E3 as E3 E4.
  exists ca, c, cb. split; [exact E1|]. split; [symmetry; exact E3|]. split; [exact H2|]. subst a b. split; intros d Hd.
  - apply H3. apply in_map_iff. eauto.
  - apply H4. apply in_map_iff. eauto.
Qed.
Lemma gsucc_None cands r pos neg : gsucc cands r pos neg = None <->
  forall d, In d (cands r) -> (ggain r (Rule_ (conds r ++ [d])) pos neg <= 1)%Q.
Proof.
  split.
  - intros H d Hd. unfold gsucc in H.
    destruct (succ_scan_spec (fun s => ggain r s pos neg) (map (fun c => Rule_ (conds r ++ [c])) (cands r)) 1%Q None)
      as [[H1 H2]|(a & s & b & Ea & H1 & H2 & H3 & H4)]; [|congruence].
    apply H2. apply in_map_iff. eauto.
  - intros H. destruct (gsucc cands r pos neg) as [r1|] eqn:G; auto. exfalso.
    apply gsucc_Some in G. destruct G as (a & c & b & Ec & -> & G & _).
    specialize (H c). rewrite Ec in H. specialize (H ltac:(apply in_elt)). apply (Qlt_not_le _ _ G H).
Qed.
Lemma gain_step r c pos neg : (1 < ggain r (Rule_ (conds r ++ [c])) pos neg)%Q ->
  gcov (Rule_ (conds r ++ [c])) pos <> [] /\ length (gcov (Rule_ (conds r ++ [c])) neg) < length (gcov r neg).
Proof.
  unfold ggain. intros H. apply gain2_fewer in H.
  - destruct H as [H1 H2]. split; auto. intros C. rewrite C in H1. cbn in H1. lia.
  - rewrite (gcov_conds r (Rule_ (conds r))) by auto. apply gcov_app_le.
Qed.

(** the rules visited by the loop *)
Inductive gchain (cands : rule -> list cond) (pos neg : list E) (mc ms : option Z) : rule -> rule -> Prop :=
| gc_refl r : gchain cands pos neg mc ms r r
| gc_step r c r' : gcov r neg <> [] ->
    user_halt (length (conds r)) (length (gcov r neg)) (length (gcov r pos)) mc ms = false ->
    gsucc cands r pos neg = Some (Rule_ (conds r ++ [c])) -> In c (cands r) ->
    gcov (Rule_ (conds r ++ [c])) pos <> [] -> length (gcov (Rule_ (conds r ++ [c])) neg) < length (gcov r neg) ->
    gchain cands pos neg mc ms (Rule_ (conds r ++ [c])) r' -> gchain cands pos neg mc ms r r'.

Inductive gexit (cands : rule -> list cond) (pos neg : list E) (mc ms : option Z) (r : rule) : rule -> Prop :=
| ge_done : gcov r neg = [] -> gexit cands pos neg mc ms r r
| ge_halt : gcov r neg <> [] ->
    user_halt (length (conds r)) (length (gcov r neg)) (length (gcov r pos)) mc ms = true ->
    gexit cands pos neg mc ms r (halted_rule ms r)
| ge_stuck : gcov r neg <> [] ->
    user_halt (length (conds r)) (length (gcov r neg)) (length (gcov r pos)) mc ms = false ->
    gsucc cands r pos neg = None -> gexit cands pos neg mc ms r r.

Lemma ggrow_spec cands pos neg mc ms fuel : forall r r', ggrow fuel cands pos neg mc ms r = Ok r' ->
  exists r1, gchain cands pos neg mc ms r r1 /\ gexit cands pos neg mc ms r1 r'.
Proof.
  induction fuel as [|k IH]; intros r r' H; [discriminate|]. cbn [ggrow] in H.
  destruct (length (gcov r neg) =? 0) eqn:N.
  - injection H as <-. exists r. split; [constructor|]. constructor. apply Nat.eqb_eq in N. apply length_zero_iff_nil; auto.
  - assert (NE : gcov r neg <> []). { intros C. rewrite C in N. discriminate. }
    destruct (user_halt _ _ _ _ _) eqn:U.
    + injection H as <-. exists r. split; [constructor|]. apply ge_halt; auto.
    + destruct (gsucc cands r pos neg) as [s|] eqn:G.
      * destruct (IH _ _ H) as (r1 & C & X). exists r1. split; auto.
        pose proof G as G'. apply gsucc_Some in G'. destruct G' as (a & c & b & Ec & -> & Gn & _).
        pose proof (gain_step _ _ _ _ Gn) as [P1 P2].
        apply gc_step with c; auto. rewrite Ec. apply in_elt.
      * injection H as <-. exists r. split; [constructor|]. apply ge_stuck; auto.
Qed.
Lemma ggrow_total cands pos neg mc ms fuel : forall r, length (gcov r neg) < fuel -> isOk (ggrow fuel cands pos neg mc ms r).
Proof.
  induction fuel as [|k IH]; intros r H; [lia|]. cbn [ggrow].
  destruct (length (gcov r neg) =? 0); [eexists; eauto|].
  destruct (user_halt _ _ _ _ _); [eexists; eauto|].
  destruct (gsucc cands r pos neg) as [s|] eqn:G; [|eexists; eauto].
  apply IH. apply gsucc_Some in G. destruct G as (a & c & b & Ec & -> & Gn & _).
  apply gain_step in Gn. lia.
Qed.
Lemma ggrow_total0 cands pos neg mc ms r : isOk (ggrow (S (length neg)) cands pos neg mc ms r).
Proof. apply ggrow_total. unfold gcov. pose proof (filter_length_le (gsat r) neg). lia. Qed.

Section Chain.
Context (cands : rule -> list cond) (pos neg : list E) (mc ms : option Z).
Notation chain := (gchain cands pos neg mc ms).
Lemma gchain_app r r1 : chain r r1 -> exists ds, conds r1 = conds r ++ ds /\ (ds = [] -> r1 = r) /\ (ds <> [] -> rstats r1 = None) /\
  (forall a d b, ds = a ++ d :: b ->
     In d (cands (match a with [] => r | _ => Rule_ (conds r ++ a) end)) /\
     gcov (Rule_ (conds r ++ a ++ [d])) pos <> [] /\
     length (gcov (Rule_ (conds r ++ a ++ [d])) neg) < length (gcov (Rule_ (conds r ++ a)) neg) /\
     gcov (Rule_ (conds r ++ a)) neg <> [] /\
     user_halt (length (conds r ++ a)) (length (gcov (Rule_ (conds r ++ a)) neg)) (length (gcov (Rule_ (conds r ++ a)) pos)) mc ms = false).
Proof.
  induction 1 as [r|r c r' N U G I P L _ IH].
  - exists []. rewrite app_nil_r. repeat split; try tauto; destruct a; discriminate.
  - destruct IH as (ds & E1 & E2 & E5 & E3). cbn [conds Rule_] in *. exists (c :: ds). split; [|split; [|split]].
    + rewrite E1, <- app_assoc. reflexivity.
    + discriminate.
    + intros _. destruct ds as [|d ds]; [rewrite E2; auto|]. apply E5. discriminate.
    + intros a d b Hd. destruct a as [|x a]; cbn [app] in Hd; injection Hd as -> Hd.
      * cbn [app]. rewrite app_nil_r, !(gcov_conds (Rule_ (conds r)) r) by auto. auto.
      * specialize (E3 a d b Hd). rewrite <- !app_assoc in E3. cbn [app] in E3.
        destruct E3 as (X & Y). split; [|exact Y].
        destruct a as [|y a]; exact X.
Qed.

Lemma gchain_pos r r1 : chain r r1 -> gcov r pos <> [] -> gcov r1 pos <> [].
Proof. induction 1; auto. Qed.
Lemma gchain_len r r1 : chain r r1 -> (forall m, mc = Some m -> Z.of_nat (length (conds r)) <= m)%Z ->
  (forall m, mc = Some m -> Z.of_nat (length (conds r1)) <= m)%Z.
Proof.
  induction 1 as [|r c r' N U G I P L _ IH]; auto. intros H. apply IH. intros m Hm. cbn [conds Rule_].
  unfold user_halt in U. apply Bool.orb_false_elim in U. destruct U as [U _]. rewrite Hm in U. cbn in U.
  apply Z.leb_gt in U. rewrite app_length. cbn. lia.
Qed.
Lemma halted_conds r : exists b, conds r = conds (halted_rule ms r) ++ b.
Proof.
  unfold halted_rule. destruct ms; [|exists []; rewrite app_nil_r; auto].
  destruct (conds r) as [|c t] eqn:C; [exists []; rewrite C; auto|]. cbn [conds pop_cond set_conds].
  rewrite C. exists [last (c :: t) c]. apply app_removelast_last. discriminate.
Qed.
Lemma gexit_prefix r1 r' : gexit cands pos neg mc ms r1 r' -> exists b, conds r1 = conds r' ++ b.
Proof. intros [?|? ?|? ? ?]; try (exists []; rewrite app_nil_r; auto; fail). apply halted_conds. Qed.

Lemma grown_pos r r1 r' : chain r r1 -> gexit cands pos neg mc ms r1 r' -> gcov r pos <> [] -> gcov r' pos <> [].
Proof.
  intros C X H. apply (gchain_pos _ _ C) in H. destruct (gexit_prefix _ _ X) as [b B].
  destruct (gcov r1 pos) as [|i l] eqn:L; [congruence|]. intros Z.
  assert (In i (gcov r' pos)); [|rewrite Z in *; auto].
  apply gcov_prefix_In with r1; [exists b; auto|]. rewrite L. left; auto.
Qed.
Lemma grown_len r r1 r' m : chain r r1 -> gexit cands pos neg mc ms r1 r' -> mc = Some m ->
  (Z.of_nat (length (conds r)) <= m)%Z -> (Z.of_nat (length (conds r')) <= m)%Z.
Proof.
  intros C X Hm H. destruct (gexit_prefix _ _ X) as [b B].
  assert (L : (Z.of_nat (length (conds r1)) <= m)%Z).
  { eapply gchain_len; eauto. intros m' Hm'. assert (m = m') by congruence. subst. auto. }
  rewrite B, app_length in L. lia.
Qed.
Lemma grown_conds r r1 r' (P : cond -> Prop) : chain r r1 -> gexit cands pos neg mc ms r1 r' ->
  (forall s c, In c (cands s) -> P c) -> (forall c, In c (conds r) -> P c) -> forall c, In c (conds r') -> P c.
Proof.
  intros C X HP H. destruct (gexit_prefix _ _ X) as [b B]. apply gchain_app in C. destruct C as (ds & E1 & E2 & _ & E3).
  assert (K : forall c, In c (conds r1) -> P c).
  { intros c. rewrite E1, in_app_iff. intros [?|I]; auto. apply in_split in I. destruct I as (u & v & ->).
    specialize (E3 u c v eq_refl). destruct E3 as [E3 _]. eauto. }
  intros c I. apply K. rewrite B. apply in_or_app; auto.
Qed.
End Chain.
End Eng.

Arguments gsat {E} cs r i /.

(** ** The DataFrame engine is an instance *)
Definition rsat (cols : list pyval) (c : cond) (rw : row) : bool := cell_eq cols (cfeat c) (cval c) rw.
Definition df_cands (possible : list cond) (r : rule) : list cond :=
  filter (fun c => negb (existsb (fun d => cond_eqb d c) (conds r))) possible.
Lemma rcov_gcov cols r l : rcov cols r l = gcov (rsat cols) r l.
Proof. reflexivity. Qed.
Lemma best_successor_g cols r possible pos neg :
  best_successor cols r possible pos neg = gsucc (rsat cols) (df_cands possible) r pos neg.
Proof. reflexivity. Qed.
Lemma grow_loop_g fuel cols possible pos neg mc ms : forall r,
  grow_loop fuel cols possible pos neg mc ms r = ggrow (rsat cols) fuel (df_cands possible) pos neg mc ms r.
Proof.
  induction fuel as [|k IH]; intros r; [reflexivity|]. cbn [grow_loop ggrow]. rewrite !rcov_gcov, best_successor_g.
  destruct (_ =? 0); auto. destruct (user_halt _ _ _ _ _); auto.
  destruct (gsucc _ _ r pos neg); auto.
Qed.
Lemma grow_rule_g cols possible pos neg mc ms r :
  grow_rule cols possible pos neg mc ms r = ggrow (rsat cols) (S (length neg)) (df_cands possible) pos neg mc ms r.
Proof. apply grow_loop_g. Qed.

(** ** The CatNap engine is an instance, on subsets of the index *)
Definition lsat (cn : catnap) (c : cond) (i : nat) : bool := nmem i (cn_get cn c).
Definition cn_cands (cn : catnap) (r : rule) : list cond := cn_conds cn.
Lemma cn_rule_covers_g cn r l : incl l (cn_all cn) -> cn_rule_covers cn r l = gcov (lsat cn) r l.
Proof.
  intros H. unfold cn_rule_covers, gcov, gsat. destruct (conds r) as [|c t] eqn:C.
  - rewrite filter_all; [rewrite filter_all; auto|]. intros i Hi. apply nmem_In. apply H; auto.
  - apply filter_ext. intros i. change (map (cn_get cn) (c :: t)) with (map (cn_get cn) (c :: t)).
    generalize (c :: t). intros l0. induction l0 as [|x l0 IH]; [reflexivity|]. cbn [map forallb]. rewrite IH. reflexivity.
Qed.
Lemma gcov_sub {E} (s : cond -> E -> bool) r l x : incl l x -> incl (gcov s r l) x.
Proof. intros H i Hi. apply gcov_incl in Hi. auto. Qed.
Lemma best_rule_successor_cn_g cn r pos neg : incl pos (cn_all cn) -> incl neg (cn_all cn) ->
  best_rule_successor_cn cn r pos neg = gsucc (lsat cn) (cn_cands cn) r pos neg.
Proof.
  intros P N. unfold best_rule_successor_cn, gsucc, cn_cands.
  rewrite !cn_rule_covers_g by auto. symmetry. apply scan_agree. intros c _. unfold ggain, gain_cn, cn_cond_covers.
  rewrite (gcov_conds (lsat cn) r (Rule_ (conds r))) by auto. rewrite !gcov_step.
  rewrite (gcov_conds (lsat cn) r (Rule_ (conds r)) neg) by auto. reflexivity.
Qed.
Lemma grow_loop_cn_g fuel cn pos neg mc ms : incl pos (cn_all cn) -> incl neg (cn_all cn) -> forall r,
  grow_loop_cn fuel cn pos neg mc ms r = ggrow (lsat cn) fuel (cn_cands cn) pos neg mc ms r.
Proof.
  intros P N. induction fuel as [|k IH]; intros r; [reflexivity|]. cbn [grow_loop_cn ggrow].
  rewrite !cn_rule_covers_g, best_rule_successor_cn_g by auto.
  destruct (_ =? 0); auto. destruct (user_halt _ _ _ _ _); auto.
  destruct (gsucc _ _ r pos neg); auto.
Qed.
Lemma grow_rule_cn_g cn pos neg mc ms r : incl pos (cn_all cn) -> incl neg (cn_all cn) ->
  grow_rule_cn cn pos neg mc ms r = ggrow (lsat cn) (S (length neg)) (cn_cands cn) pos neg mc ms r.
Proof. intros. apply grow_loop_cn_g; auto. Qed.
Lemma lsat_eqb cn c d i : cond_eqb c d = true -> lsat cn c i = lsat cn d i.
Proof.
  intros H. unfold lsat, cn_get. f_equal.
  assert (forall l : list (cond * list nat), find (fun p => cond_eqb (fst p) c) l = find (fun p => cond_eqb (fst p) d) l) as ->; auto.
  induction l as [|p l IH]; [reflexivity|]. cbn. rewrite IH.
  assert (cond_eqb (fst p) c = cond_eqb (fst p) d) as ->; auto.
  destruct (cond_eqb (fst p) c) eqn:A, (cond_eqb (fst p) d) eqn:B; auto.
  - rewrite (cond_eqb_trans _ _ _ A H) in B. discriminate.
  - rewrite cond_eqb_sym in H. rewrite (cond_eqb_trans _ _ _ B H) in A. discriminate.
Qed.
