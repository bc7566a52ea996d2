(** * BaseFacts.v : lemmas about Python values, strings, lists *)
From Verif Require Export Spec.
Global Arguments Nat.ltb : simpl never.
Global Arguments Nat.leb : simpl never.

Lemma str_eqb_eq a b : str_eqb a b = true <-> a = b.
Proof.
  revert b; induction a as [|x a IH]; destruct b as [|y b]; cbn; try (split; congruence).
  rewrite andb_true_iff, IH. rewrite Ascii.eqb_eq. split; [intros [-> ->]; auto|intros [= -> ->]; auto].
Qed.
Lemma str_eqb_refl a : str_eqb a a = true.
Proof. apply str_eqb_eq; reflexivity. Qed.
Lemma str_eqb_neq a b : str_eqb a b = false <-> a <> b.
Proof. rewrite <- str_eqb_eq. destruct (str_eqb a b); split; congruence. Qed.
Lemma str_dec (a b : str) : {a = b} + {a <> b}.
Proof. destruct (str_eqb a b) eqn:E; [left; apply str_eqb_eq | right; apply str_eqb_neq]; auto. Qed.
Lemma str_in_In s l : str_in s l = true <-> In s l.
Proof.
  unfold str_in; rewrite existsb_exists. split.
  - intros (x & Hx & E). apply str_eqb_eq in E; subst; auto.
  - intros H; exists s; split; auto using str_eqb_refl.
Qed.

Lemma py_eq_sym v w : py_eq v w = py_eq w v.
Proof.
  destruct v as [a|z|b|m k|], w as [a'|z'|b'|m' k'|]; cbn -[Qeq_bool]; auto;
  try (destruct (str_eqb a a') eqn:E; [apply str_eqb_eq in E; subst; symmetry; apply str_eqb_refl|
     apply str_eqb_neq in E; symmetry; apply str_eqb_neq; congruence]);
  apply eq_true_iff_eq; rewrite !Qeq_bool_iff; split; intros H; symmetry; auto.
Qed.
Lemma py_eq_trans u v w : py_eq u v = true -> py_eq v w = true -> py_eq u w = true.
Proof.
  destruct u as [a|z|b|m k|], v as [a'|z'|b'|m' k'|], w as [a''|z''|b''|m'' k''|]; cbn -[Qeq_bool]; try congruence;
  rewrite ?str_eqb_eq, ?Qeq_bool_iff; intros; subst; auto; etransitivity; eauto.
Qed.
Lemma py_eq_refl v : v <> PNaN -> py_eq v v = true.
Proof. destruct v; cbn -[Qeq_bool]; intros H; try congruence; rewrite ?str_eqb_refl; auto; apply Qeq_bool_iff; reflexivity. Qed.
Lemma py_eq_nan_l v : py_eq PNaN v = false.
Proof. destruct v; reflexivity. Qed.
Lemma py_eq_nan_r v : py_eq v PNaN = false.
Proof. rewrite py_eq_sym; apply py_eq_nan_l. Qed.
Lemma py_eq_refl_l u v : py_eq u v = true -> py_eq u u = true.
Proof. intros H. apply py_eq_refl. intros ->. rewrite py_eq_nan_l in H; discriminate. Qed.
Lemma py_eq_refl_r u v : py_eq u v = true -> py_eq v v = true.
Proof. rewrite py_eq_sym. apply py_eq_refl_l. Qed.
Lemma py_eq_rewrite u v w : py_eq u v = true -> py_eq u w = py_eq v w.
Proof.
  intros H. apply eq_true_iff_eq; split; intros H1.
  - eapply py_eq_trans; eauto. rewrite py_eq_sym; auto.
  - eapply py_eq_trans; eauto.
Qed.
Lemma py_eq_rewrite_r u v w : py_eq u v = true -> py_eq w u = py_eq w v.
Proof. intros H. rewrite (py_eq_sym w u), (py_eq_sym w v). apply py_eq_rewrite; auto. Qed.

Lemma uniq_eq_refl v : uniq_eq v v = true.
Proof. unfold uniq_eq. destruct v; cbn -[py_eq]; rewrite ?py_eq_refl by congruence; auto. Qed.
Lemma uniq_eq_sym v w : uniq_eq v w = uniq_eq w v.
Proof. unfold uniq_eq. rewrite py_eq_sym, andb_comm; auto. Qed.
Lemma uniq_eq_trans u v w : uniq_eq u v = true -> uniq_eq v w = true -> uniq_eq u w = true.
Proof.
  unfold uniq_eq. rewrite !orb_true_iff, !andb_true_iff.
  destruct u, v, w; cbn -[py_eq]; intros [H|[H H']] [G|[G G']]; try discriminate;
  rewrite ?py_eq_nan_l, ?py_eq_nan_r in *; try discriminate; auto;
  left; eapply py_eq_trans; eauto.
Qed.

Lemma cond_eqb_sym a b : cond_eqb a b = cond_eqb b a.
Proof. unfold cond_eqb. rewrite (py_eq_sym (cfeat a)), (py_eq_sym (cval a)); auto. Qed.
Lemma cond_eqb_trans a b c : cond_eqb a b = true -> cond_eqb b c = true -> cond_eqb a c = true.
Proof. unfold cond_eqb. rewrite !andb_true_iff. intros [] []; split; eapply py_eq_trans; eauto. Qed.

Lemma nmem_In x l : nmem x l = true <-> In x l.
Proof.
  unfold nmem; rewrite existsb_exists; split.
  - intros (y & H & E). apply Nat.eqb_eq in E; subst; auto.
  - intros H; exists x; split; auto. apply Nat.eqb_refl.
Qed.
Lemma nmem_false x l : nmem x l = false <-> ~ In x l.
Proof. rewrite <- nmem_In. destruct (nmem x l); split; congruence. Qed.

(** ** bind / mapM *)
Lemma bind_Ok {A B} (x : res A) (f : A -> res B) b : bind x f = Ok b -> exists a, x = Ok a /\ f a = Ok b.
Proof. destruct x; cbn; intros; [eauto|discriminate]. Qed.
Lemma bind_Err {A B} (x : res A) (f : A -> res B) e : bind x f = Err e -> x = Err e \/ exists a, x = Ok a /\ f a = Err e.
Proof. destruct x; cbn; intros H; [right; eauto|left; congruence]. Qed.

Ltac binv H :=
  let a := fresh "v" in let E := fresh "E" in
  apply bind_Ok in H; destruct H as (a & E & H).

Lemma mapM_Ok {A B} (f : A -> res B) l bs : mapM f l = Ok bs <-> Forall2 (fun a b => f a = Ok b) l bs.
Proof.
  revert bs; induction l as [|a l IH]; cbn; intros bs.
  - split; [intros [= <-]; constructor|intros H; inversion H; auto].
  - split.
    + intros H. binv H. binv H. injection H as <-. constructor; auto. apply IH; auto.
    + intros H; inversion H as [|? b ? bs' H1 H2]; subst. rewrite H1; cbn.
      apply IH in H2. rewrite H2; auto.
Qed.
Lemma mapM_ext {A B} (f g : A -> res B) l : (forall a, In a l -> f a = g a) -> mapM f l = mapM g l.
Proof.
  induction l as [|a l IH]; cbn; intros H; auto.
  rewrite H by auto. rewrite IH; auto.
Qed.
Lemma mapM_total {A B} (f : A -> res B) (g : A -> B) l : (forall a, In a l -> f a = Ok (g a)) -> mapM f l = Ok (map g l).
Proof.
  induction l as [|a l IH]; cbn; intros H; auto.
  rewrite H by auto; cbn. rewrite IH; auto.
Qed.
Lemma mapM_isOk {A B} (f : A -> res B) l : (forall a, In a l -> isOk (f a)) -> isOk (mapM f l).
Proof.
  induction l as [|a l IH]; cbn; intros H; [eexists; eauto|].
  destruct (H a (or_introl eq_refl)) as [b Hb]. rewrite Hb; cbn.
  destruct IH as [bs Hbs]; auto. rewrite Hbs; cbn; eexists; eauto.
Qed.
Lemma mapM_Err {A B} (f : A -> res B) l e : mapM f l = Err e -> exists a, In a l /\ f a = Err e.
Proof.
  induction l as [|a l IH]; cbn; intros H; [discriminate|].
  apply bind_Err in H; destruct H as [H|(b & H1 & H)]; [exists a; auto|].
  apply bind_Err in H; destruct H as [H|(bs & H2 & H)]; [destruct (IH H) as (x & ? & ?); exists x; auto|discriminate].
Qed.
Lemma mapM_length {A B} (f : A -> res B) l bs : mapM f l = Ok bs -> length bs = length l.
Proof. rewrite mapM_Ok. induction 1; cbn; auto. Qed.
Lemma mapM_err_first {A B} (f : A -> res B) l a e :
  In a l -> f a = Err e -> (forall x e', In x l -> f x = Err e' -> e' = e) -> mapM f l = Err e.
Proof.
  induction l as [|x l IH]; cbn; intros Hin Ha Hall; [contradiction|].
  destruct (f x) as [b|e'] eqn:Ex; cbn.
  - destruct Hin as [->|Hin]; [congruence|]. rewrite IH; auto. intros; eapply Hall; eauto.
  - rewrite (Hall x e'); auto.
Qed.

(** ** lists *)
Lemma Forall2_map_r {A B C} (f : B -> C) (P : A -> C -> Prop) (l : list A) (l' : list B) :
  Forall2 (fun a b => P a (f b)) l l' -> Forall2 P l (map f l').
Proof. induction 1; cbn; auto. Qed.
Lemma Forall2_map_self {A B} (f : A -> B) (P : A -> B -> Prop) (l : list A) :
  (forall a, In a l -> P a (f a)) -> Forall2 P l (map f l).
Proof. induction l; cbn; intros H; constructor; auto. Qed.
Lemma Forall2_length {A B} (P : A -> B -> Prop) l l' : Forall2 P l l' -> length l = length l'.
Proof. induction 1; cbn; auto. Qed.
Lemma Forall2_impl {A B} (P Q : A -> B -> Prop) l l' :
  (forall a b, In a l -> In b l' -> P a b -> Q a b) -> Forall2 P l l' -> Forall2 Q l l'.
Proof. intros H F; induction F; constructor; auto. apply H; cbn; auto. apply IHF. intros; apply H; cbn; auto. Qed.

Lemma filter_ext_in {A} (f g : A -> bool) l : (forall a, In a l -> f a = g a) -> filter f l = filter g l.
Proof. induction l as [|a l IH]; cbn; intros H; auto. rewrite H, IH; auto. Qed.
Lemma filter_filter {A} (f g : A -> bool) l : filter f (filter g l) = filter (fun x => g x && f x) l.
Proof. induction l as [|a l IH]; cbn; auto. destruct (g a) eqn:G; cbn; rewrite IH; auto. Qed.
Lemma filter_length_le {A} (f : A -> bool) l : length (filter f l) <= length l.
Proof. induction l as [|a l IH]; cbn; auto. destruct (f a); cbn; lia. Qed.
Lemma filter_all {A} (f : A -> bool) l : (forall a, In a l -> f a = true) -> filter f l = l.
Proof. induction l as [|a l IH]; cbn; intros H; auto. rewrite H, IH; auto. Qed.
Lemma filter_none {A} (f : A -> bool) l : (forall a, In a l -> f a = false) -> filter f l = [].
Proof. induction l as [|a l IH]; cbn; intros H; auto. rewrite H, IH; auto. Qed.
Lemma filter_length_split {A} (f : A -> bool) l : length (filter f l) + length (filter (fun x => negb (f x)) l) = length l.
Proof. induction l as [|a l IH]; cbn; auto. destruct (f a); cbn; lia. Qed.
Lemma filter_length_mono {A} (f g : A -> bool) l :
  (forall a, In a l -> f a = true -> g a = true) -> length (filter f l) <= length (filter g l).
Proof.
  induction l as [|a l IH]; cbn; intros H; auto.
  assert (IH' := IH (fun x Hx => H x (or_intror Hx))).
  destruct (f a) eqn:F; [rewrite (H a) by auto; cbn; lia|].
  destruct (g a); cbn; lia.
Qed.
Lemma filter_length_strict {A} (f g : A -> bool) l :
  (forall a, In a l -> f a = true -> g a = true) -> length (filter f l) < length (filter g l) ->
  exists a, In a l /\ g a = true /\ f a = false.
Proof.
  induction l as [|a l IH]; cbn; intros H Hlt; [lia|].
  destruct (f a) eqn:F, (g a) eqn:G; cbn in Hlt.
  - destruct IH as (x & ? & ? & ?); eauto; lia.
  - rewrite (H a) in G by auto; discriminate.
  - exists a; auto.
  - destruct IH as (x & ? & ? & ?); eauto.
Qed.
Lemma filter_length_pos {A} (f : A -> bool) l : 0 < length (filter f l) <-> exists a, In a l /\ f a = true.
Proof.
  split.
  - destruct (filter f l) as [|a t] eqn:E; cbn; [lia|]. intros _. exists a.
    apply filter_In. rewrite E; cbn; auto.
  - intros (a & Ha & Hf). assert (In a (filter f l)) by (apply filter_In; auto).
    destruct (filter f l); [contradiction|cbn; lia].
Qed.
Lemma map_filter_comm {A B} (g : A -> B) (p : B -> bool) l : filter p (map g l) = map g (filter (fun x => p (g x)) l).
Proof. induction l as [|a l IH]; cbn; auto. destruct (p (g a)); cbn; rewrite IH; auto. Qed.
Lemma NoDup_filter_ {A} (f : A -> bool) l : NoDup l -> NoDup (filter f l).
Proof. apply NoDup_filter. Qed.
Lemma NoDup_map_filter {A B} (g : A -> B) (f : A -> bool) l : NoDup (map g l) -> NoDup (map g (filter f l)).
Proof.
  induction l as [|a l IH]; cbn; intros H; auto. inversion H; subst.
  destruct (f a); cbn; auto. constructor; auto.
  intros Hin. apply H2. apply in_map_iff in Hin. destruct Hin as (x & <- & Hx).
  apply filter_In in Hx. apply in_map; tauto.
Qed.
Lemma NoDup_map_inj {A B} (g : A -> B) l a b : NoDup (map g l) -> In a l -> In b l -> g a = g b -> a = b.
Proof.
  induction l as [|x l IH]; cbn; intros H Ha Hb E; [contradiction|]. inversion H; subst.
  destruct Ha as [->|Ha], Hb as [->|Hb]; auto.
  - exfalso; apply H2. rewrite E. apply in_map; auto.
  - exfalso; apply H2. rewrite <- E. apply in_map; auto.
Qed.

Lemma picks_filter {A} (P : A -> Prop) (f : A -> bool) l :
  (forall a, In a l -> (f a = true <-> P a)) -> picks P l (filter f l).
Proof.
  induction l as [|a l IH]; cbn; intros H; [constructor|].
  destruct (f a) eqn:F.
  - constructor; [apply H; auto|apply IH; auto].
  - constructor; [|apply IH; auto]. intros HP. apply H in HP; auto. congruence.
Qed.
Lemma picks_unique {A} (P : A -> Prop) l l1 l2 : picks P l l1 -> picks P l l2 -> l1 = l2.
Proof.
  intros H; revert l2; induction H; intros l2 H2; inversion H2; subst; auto; try contradiction.
  f_equal; auto.
Qed.
Lemma picks_In {A} (P : A -> Prop) l l' a : picks P l l' -> (In a l' <-> In a l /\ P a).
Proof.
  induction 1 as [|x l l' Hx H IH|x l l' Hx H IH]; cbn; [tauto| |].
  - rewrite IH. split; [intros [->|[]]; auto|intros [[->|] ]; auto].
  - rewrite IH. split; [tauto|]. intros [[->|] ]; auto; contradiction.
Qed.
Lemma picks_nil_iff {A} (P : A -> Prop) l l' : picks P l l' -> (l' = [] <-> forall a, In a l -> ~ P a).
Proof.
  intros H. split.
  - intros -> a Ha HP. assert (In a []) by (rewrite (picks_In _ _ _ _ H); auto). contradiction.
  - intros Hn. destruct l' as [|a l']; auto. assert (In a (a :: l')) as Hin by (cbn; auto).
    rewrite (picks_In _ _ _ _ H) in Hin. destruct Hin as [Hin HP]. exfalso; eapply Hn; eauto.
Qed.

Lemma sublist_refl {A} (l : list A) : sublist l l.
Proof. induction l; constructor; auto. Qed.
Lemma sublist_nil_l {A} (l : list A) : sublist [] l.
Proof. induction l; constructor; auto. Qed.
Lemma sublist_In {A} (l l' : list A) a : sublist l' l -> In a l' -> In a l.
Proof. induction 1; cbn; intuition. Qed.
Lemma sublist_filter {A} (f : A -> bool) l : sublist (filter f l) l.
Proof. induction l as [|a l IH]; cbn; [constructor|]. destruct (f a); constructor; auto. Qed.
Lemma sublist_length {A} (l l' : list A) : sublist l' l -> length l' <= length l.
Proof. induction 1; cbn; lia. Qed.
Lemma sublist_trans {A} (l1 l2 l3 : list A) : sublist l1 l2 -> sublist l2 l3 -> sublist l1 l3.
Proof.
  intros H1 H2; revert l1 H1. induction H2; intros l1 H1; auto.
  - inversion H1; subst; constructor; auto.
  - constructor; auto.
Qed.

Lemma prefix_refl {A} (l : list A) : prefix l l.
Proof. exists []. rewrite app_nil_r; auto. Qed.
Lemma prefix_app {A} (l s : list A) : prefix l (l ++ s).
Proof. exists s; auto. Qed.
Lemma prefix_trans {A} (a b c : list A) : prefix a b -> prefix b c -> prefix a c.
Proof. intros [s ->] [t ->]. exists (s ++ t). rewrite app_assoc; auto. Qed.
Lemma prefix_In {A} (p l : list A) a : prefix p l -> In a p -> In a l.
Proof. intros [s ->] H. apply in_or_app; auto. Qed.
Lemma prefix_firstn {A} n (l : list A) : prefix (firstn n l) l.
Proof. exists (skipn n l). rewrite firstn_skipn; auto. Qed.
Lemma prefix_is_firstn {A} (p l : list A) : prefix p l -> p = firstn (length p) l /\ length p <= length l.
Proof. intros [s ->]. rewrite firstn_app, firstn_all, Nat.sub_diag, app_length. cbn. rewrite app_nil_r. split; auto; lia. Qed.
Lemma prefix_length {A} (p l : list A) : prefix p l -> length p <= length l.
Proof. intros H; apply prefix_is_firstn in H; tauto. Qed.

Lemma count_conds_app a b : count_conds (a ++ b) = count_conds a + count_conds b.
Proof. unfold count_conds. rewrite map_app, list_sum_app; auto. Qed.
Lemma count_conds_cons r a : count_conds (r :: a) = length (conds r) + count_conds a.
Proof. reflexivity. Qed.
Lemma count_conds_nil : count_conds [] = 0.
Proof. reflexivity. Qed.
Lemma count_conds_rev a : count_conds (rev a) = count_conds a.
Proof.
  induction a as [|x a IH]; cbn [rev]; auto.
  rewrite count_conds_app, IH, !count_conds_cons, count_conds_nil. lia.
Qed.

(** ** dedup_by *)
Lemma dedup_by_In {A} (eqb : A -> A -> bool) seen l a : In a (dedup_by eqb seen l) -> In a l.
Proof.
  revert seen; induction l as [|x l IH]; cbn; intros seen H; auto.
  destruct (existsb _ _); [right; eauto|]. destruct H as [->|H]; eauto.
Qed.
Lemma dedup_by_complete {A} (eqb : A -> A -> bool) (Hr : forall a, eqb a a = true)
  seen l a : In a l -> exists b, (In b seen \/ In b (dedup_by eqb seen l)) /\ eqb b a = true.
Proof.
  revert seen; induction l as [|x l IH]; cbn; intros seen H; [contradiction|].
  destruct (existsb (fun b => eqb b x) seen) eqn:E.
  - destruct H as [->|H].
    + apply existsb_exists in E. destruct E as (b & Hb & E). exists b; auto.
    + apply IH; auto.
  - destruct H as [->|H].
    + exists a; cbn; auto.
    + destruct (IH (seen ++ [x]) H) as (b & Hb & Eb). exists b; split; auto.
      rewrite in_app_iff in Hb; cbn in *. tauto.
Qed.
Lemma dedup_by_NoDup {A} (eqb : A -> A -> bool) (Hr : forall a, eqb a a = true) seen l :
  NoDup (dedup_by eqb seen l) /\ (forall a, In a (dedup_by eqb seen l) -> existsb (fun b => eqb b a) seen = false).
Proof.
  revert seen; induction l as [|x l IH]; cbn; intros seen; [split; [constructor|contradiction]|].
  destruct (existsb (fun b => eqb b x) seen) eqn:E; [apply IH|].
  destruct (IH (seen ++ [x])) as [H1 H2]. split.
  - constructor; auto. intros Hx. apply H2 in Hx. rewrite existsb_app in Hx. cbn in Hx.
    rewrite Hr, orb_true_r in Hx. discriminate.
  - intros a [->|Ha]; auto. apply H2 in Ha. rewrite existsb_app, orb_false_iff in Ha. tauto.
Qed.
