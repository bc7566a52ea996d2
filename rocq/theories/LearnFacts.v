(** * LearnFacts.v : growing a rule, both engines *)
From Verif Require Export PruneFacts RealFacts.
From Coq Require Import Reals Lqa.
Open Scope nat_scope.

Section G.
Context {E : Type} (cs : cond -> E -> bool).
Context (compat : forall c d i, cond_eqb c d = true -> cs c i = cs d i).

Lemma repeat_same a d e l : In e a -> cond_eqb e d = true -> gcov cs (Rule_ (a ++ [d])) l = gcov cs (Rule_ a) l.
Proof.
  intros I Q. rewrite gcov_step. apply filter_all. intros i H. apply filter_In in H. destruct H as [_ H].
  unfold gsat in H. rewrite forallb_forall in H. rewrite <- (compat e d i Q). apply H. exact I.
Qed.
Lemma gain2_same p n : (gain2 p n p n <= 1)%Q.
Proof.
  apply Qnot_lt_le. intros H. apply gain2_gt1 in H. nia.
Qed.
(** the gain as a real number *)
Definition rgain (r : rule) (c : cond) (pos neg : list E) : R :=
  foil_gain (length (gcov cs r pos)) (length (gcov cs r neg))
            (length (gcov cs (Rule_ (conds r ++ [c])) pos)) (length (gcov cs (Rule_ (conds r ++ [c])) neg)).
Lemma rgain_eq r c pos neg : rgain r c pos neg = gain_of (ggain cs r (Rule_ (conds r ++ [c])) pos neg).
Proof. unfold rgain, ggain. symmetry. apply gain2_real. Qed.
Lemma ggain_pos r s pos neg : (0 < ggain cs r s pos neg)%Q.
Proof. apply gain2_pos. Qed.

Lemma gsucc_spec cands r pos neg :
  match gsucc cs cands r pos neg with
  | Some s => exists a c b, cands r = a ++ c :: b /\ s = Rule_ (conds r ++ [c]) /\ (0 < rgain r c pos neg)%R /\
      (forall d, In d a -> (rgain r d pos neg < rgain r c pos neg)%R) /\
      (forall d, In d b -> (rgain r d pos neg <= rgain r c pos neg)%R)
  | None => forall d, In d (cands r) -> (rgain r d pos neg <= 0)%R
  end.
Proof.
  destruct (gsucc cs cands r pos neg) as [s|] eqn:G.
  - apply gsucc_Some in G. destruct G as (a & c & b & E1 & E2 & G & Ga & Gb). subst s. exists a, c, b.
    split; auto. split; auto. rewrite rgain_eq. split; [|split].
    + rewrite <- gain_of_1. apply gain_lt; auto. reflexivity. apply ggain_pos.
    + intros d D. rewrite rgain_eq. apply gain_lt; auto using ggain_pos.
    + intros d D. rewrite rgain_eq. apply gain_le; auto using ggain_pos.
  - intros d D. apply gsucc_None with (d := d) in G; auto. rewrite rgain_eq, <- gain_of_1. apply gain_le; auto using ggain_pos. reflexivity.
Qed.

(** what growing guarantees for the conditions it adds *)
Definition added_ok (cand : list cond) (r0 ds : list cond) (pos neg : list E) : Prop :=
  forall a d b, ds = a ++ d :: b ->
    In d cand /\ (forall e, In e (r0 ++ a) -> cond_eqb e d = false) /\
    gcov cs (Rule_ (r0 ++ a ++ [d])) pos <> [] /\
    length (gcov cs (Rule_ (r0 ++ a ++ [d])) neg) < length (gcov cs (Rule_ (r0 ++ a)) neg).

Lemma chain_added cands cand pos neg mc ms r r1 : (forall s, incl (cands s) cand) -> gchain cs cands pos neg mc ms r r1 ->
  exists ds, conds r1 = conds r ++ ds /\ added_ok cand (conds r) ds pos neg.
Proof.
  intros I C. apply gchain_app in C. destruct C as (ds & E1 & _ & _ & E3). exists ds. split; auto.
  intros a d b Ed. destruct (E3 a d b Ed) as (D1 & D2 & D3 & _). split; [eapply I; eauto|]. split; [|auto].
  intros e I'. destruct (cond_eqb e d) eqn:Q; auto. exfalso.
  rewrite app_assoc, (repeat_same (conds r ++ a) d e neg I' Q) in D3. lia.
Qed.
Lemma grow_summary cands cand pos neg mc r r' fuel : (forall s, incl (cands s) cand) ->
  (forall s c, In c cand -> In c (cands s) \/ exists e, In e (conds s) /\ cond_eqb e c = true) ->
  ggrow cs fuel cands pos neg mc None r = Ok r' ->
  (exists ds, conds r' = conds r ++ ds /\ added_ok cand (conds r) ds pos neg) /\
  (gcov cs r' neg = [] \/ (exists m, mc = Some m /\ (m <= Z.of_nat (length (conds r')))%Z) \/
   forall c, In c cand -> (rgain r' c pos neg <= 0)%R).
Proof.
  intros I J H. apply ggrow_spec in H. destruct H as (r1 & C & X).
  assert (r' = r1). { destruct X; auto. } subst r1. split; [eapply chain_added; eauto|].
  destruct X as [H|H1 H2|H1 H2 H3]; auto.
  - right; left. unfold user_halt in H2. cbn [lt_lim] in H2. rewrite Bool.orb_false_r in H2.
    destruct mc as [m|]; [|discriminate]. exists m. split; auto. cbn in H2. apply Z.leb_le in H2. exact H2.
  - right; right. intros c Ic. destruct (J r' c Ic) as [K|(e & K1 & K2)].
    + pose proof (gsucc_spec cands r' pos neg) as S. rewrite H3 in S. auto.
    + rewrite rgain_eq, <- gain_of_1. apply gain_le; auto using ggain_pos; [reflexivity|].
      unfold ggain. rewrite !(repeat_same (conds r') c e) by auto.
      rewrite !(gcov_conds cs (Rule_ (conds r')) r') by auto. apply gain2_same.
Qed.
(** with min_rule_samples: the rule returned is a prefix of the grown one *)
Lemma grow_summary_ms cands cand pos neg mc ms r r' fuel : (forall s, incl (cands s) cand) ->
  ggrow cs fuel cands pos neg mc ms r = Ok r' ->
  exists ds, Spec.prefix (conds r') (conds r ++ ds) /\ added_ok cand (conds r) ds pos neg.
Proof.
  intros I H. apply ggrow_spec in H. destruct H as (r1 & C & X). apply gexit_prefix in X. destruct X as [b B].
  destruct (chain_added _ _ _ _ _ _ _ _ I C) as (ds & E1 & E2). exists ds. split; auto. exists b. congruence.
Qed.

(** min_rule_samples = m: the result covers m examples, or no negative, or it is (a prefix of) the initial rule *)
Lemma grow_min_samples cands pos neg mc m r r' fuel :
  ggrow cs fuel cands pos neg mc (Some m) r = Ok r' ->
  (m <= Z.of_nat (length (gcov cs r' pos) + length (gcov cs r' neg)))%Z \/ gcov cs r' neg = [] \/ Spec.prefix (conds r') (conds r).
Proof.
  intros H. apply ggrow_spec in H. destruct H as (r1 & C & X).
  destruct X as [X|X1 X2|X1 X2 X3]; auto.
  - unfold halted_rule. apply gchain_app in C. destruct C as (ds & E1 & _ & _ & E2).
    destruct (conds r1) as [|c0 t0] eqn:C1.
    + right; right. rewrite C1. exists (conds r). reflexivity.
    + destruct (exists_last (l := conds r1)) as (pre & c & E3); [congruence|]. cbn [pop_cond set_conds conds].
      assert (E4 : removelast (conds r1) = pre) by (rewrite E3; apply removelast_last).
      destruct ds as [|d ds] using rev_ind.
      * right; right. exists [c]. rewrite E4. rewrite app_nil_r in E1. rewrite <- E1, <- C1. exact E3.
      * left. rewrite <- C1, E3, app_assoc in E1. apply app_inj_tail in E1. destruct E1 as [E1 <-].
        destruct (E2 ds c [] eq_refl) as (_ & _ & _ & _ & U).
        unfold user_halt in U. apply Bool.orb_false_elim in U. destruct U as [_ U]. cbn in U. apply Z.ltb_ge in U.
        rewrite <- E1 in U.
        rewrite !(gcov_conds cs (pop_cond r1) (Rule_ pre)) by (cbn [pop_cond set_conds conds Rule_]; exact E4). lia.
  - left. unfold user_halt in X2. apply Bool.orb_false_elim in X2. destruct X2 as [_ U]. cbn in U. apply Z.ltb_ge in U. lia.
Qed.
End G.

Lemma rsat_compat cols c d rw : cond_eqb c d = true -> rsat cols c rw = rsat cols d rw.
Proof. unfold cond_eqb. intros H. apply andb_prop in H. destruct H. apply cell_eq_py_eq; auto. Qed.
Lemma df_cands_incl possible s : incl (df_cands possible s) possible.
Proof. intros c H. apply filter_In in H. tauto. Qed.
Lemma df_cands_other possible s c : In c possible -> In c (df_cands possible s) \/ exists e, In e (conds s) /\ cond_eqb e c = true.
Proof.
  intros H. unfold df_cands. destruct (existsb (fun d => cond_eqb d c) (conds s)) eqn:X.
  - right. apply existsb_exists in X. destruct X as (e & ? & ?). eauto.
  - left. apply filter_In. rewrite X. auto.
Qed.
Lemma cn_cands_incl cn s : incl (cn_cands cn s) (cn_conds cn).
Proof. intros c H; exact H. Qed.
Lemma cn_cands_other cn s c : In c (cn_conds cn) -> In c (cn_cands cn s) \/ exists e, In e (conds s) /\ cond_eqb e c = true.
Proof. auto. Qed.
