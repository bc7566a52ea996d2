(** * RenTrain.v : tables under other names, and the learners on them *)
From Verif Require Import RenameSpec RenSim BaseFacts CoverFacts CallForm FitRun MetricsFacts TransFacts ClfFacts.
Open Scope nat_scope.

Lemma is_nan_refl v : is_nan v = negb (py_eq v v).
Proof.
  destruct v; cbn [is_nan]; symmetry; try (rewrite py_eq_refl; reflexivity); try reflexivity.
  all: apply Bool.negb_false_iff; unfold py_eq; cbn [num_of]; try (apply str_eqb_refl); try (apply Qeq_bool_iff; reflexivity).
Qed.
Lemma eq_split (a b u v : str) : ~ In "="%char a -> ~ In "="%char b -> a ++ $"=" ++ u = b ++ $"=" ++ v -> a = b /\ u = v.
Proof.
  revert b. induction a as [|x a IH]; intros [|y b] A B H; cbn in H.
  - injection H as H1. auto.
  - injection H as H1 H2. subst. exfalso. apply B. left. reflexivity.
  - injection H as H1 H2. subst. exfalso. apply A. left. reflexivity.
  - injection H as H1 H2. subst. destruct (IH b) as [-> ->]; auto; intros I; [apply A|apply B]; right; exact I.
Qed.
Lemma F2_dedup {A B} (R : A -> B -> Prop) e e' : (forall a a' b b', R a a' -> R b b' -> e a b = e' a' b') ->
  forall l l', Forall2 R l l' -> forall s s', Forall2 R s s' -> Forall2 R (dedup_by e s l) (dedup_by e' s' l').
Proof.
  intros H l l' F. induction F as [|a a' l l' RA F IH]; intros s s' FS; cbn [dedup_by]; [constructor|].
  rewrite (F2_existsb R (fun b => e b a) (fun b => e' b a') s s') by auto. destruct (existsb _ s'); [auto|]. constructor; auto. apply IH. apply F2_app; auto.
Qed.

Definition val (x : frame) (i j : nat) : pyval := nth j (rcells (nth i (frows x) (mkrow 0 []))) PNaN.

(** two tables (class columns [f], [f']) of the same shape, alike but for names *)
Record ren (f f' p p' : pyval) (a b xa xb : frame) : Prop := mkren {
  rn_a : good_frame a; rn_b : good_frame b; rn_xa : drop_col a f = Ok xa; rn_xb : drop_col b f' = Ok xb;
  rn_len : length (frows a) = length (frows b); rn_cols : length (fcols xa) = length (fcols xb);
  rn_la : NoDup (labels (frows a)); rn_lb : NoDup (labels (frows b));
  rn_pos : map (fun v => py_eq v p) (column a f) = map (fun v => py_eq v p') (column b f');
  rn_na : plain_names (fcols xa); rn_nb : plain_names (fcols xb);
  rn_pat : forall i k j, i < length (frows a) -> k < length (frows a) -> j < length (fcols xa) -> py_eq (val xa i j) (val xa k j) = py_eq (val xb i j) (val xb k j);
  rn_str : forall i k j, i < length (frows a) -> k < length (frows a) -> j < length (fcols xa) -> str_eqb (py_str (val xa i j)) (py_str (val xa k j)) = str_eqb (py_str (val xb i j)) (py_str (val xb k j)) }.

Section REN.
Variables (f f' p p' : pyval) (a b xa xb : frame).
Hypothesis RN : ren f f' p p' a b xa xb.

Lemma drop_rows q g x : drop_col q g = Ok x -> exists j, col_pos (fcols q) g = Some j /\ frows x = map (fun r => mkrow (rlab r) (remove_nth j (rcells r))) (frows q).
Proof. unfold drop_col. destruct (col_pos (fcols q) g) as [j|]; [|discriminate]. intros H. apply ok_inj in H. subst x. eauto. Qed.
Lemma drop_len q g x : drop_col q g = Ok x -> length (frows x) = length (frows q).
Proof. intros H. destruct (drop_rows _ _ _ H) as (j & _ & ->). apply map_length. Qed.
Lemma drop_labels_same q g x : drop_col q g = Ok x -> labels (frows x) = labels (frows q).
Proof. intros H. destruct (drop_rows _ _ _ H) as (j & _ & ->). unfold labels. rewrite map_map. reflexivity. Qed.
Lemma xlen : length (frows xa) = length (frows a) /\ length (frows xb) = length (frows a).
Proof. split; [apply (drop_len _ _ _ (rn_xa _ _ _ _ _ _ _ _ RN))|]. rewrite (drop_len _ _ _ (rn_xb _ _ _ _ _ _ _ _ RN)). symmetry. apply (rn_len _ _ _ _ _ _ _ _ RN). Qed.
Lemma xgood : good_frame xa /\ good_frame xb.
Proof. split; [apply (drop_col_good _ _ _ (rn_a _ _ _ _ _ _ _ _ RN) (rn_xa _ _ _ _ _ _ _ _ RN))|apply (drop_col_good _ _ _ (rn_b _ _ _ _ _ _ _ _ RN) (rn_xb _ _ _ _ _ _ _ _ RN))]. Qed.

Definition rl (i i' : nat) : Prop := exists k, nth_error (labels (frows a)) k = Some i /\ nth_error (labels (frows b)) k = Some i'.
Definition rr (r r' : row) : Prop := exists i, nth_error (frows a) i = Some r /\ nth_error (frows b) i = Some r'.
Definition rx (r r' : row) : Prop := exists i, nth_error (frows xa) i = Some r /\ nth_error (frows xb) i = Some r'.
Definition rf (g g' : pyval) : Prop := exists j, nth_error (fcols xa) j = Some g /\ nth_error (fcols xb) j = Some g'.
Definition rv (j : nat) (v v' : pyval) : Prop := exists i, i < length (frows a) /\ v = val xa i j /\ v' = val xb i j.
Definition rc (c c' : cond) : Prop := exists j, nth_error (fcols xa) j = Some (cfeat c) /\ nth_error (fcols xb) j = Some (cfeat c') /\ rv j (cval c) (cval c').

Lemma NoDup_eqb (l l' : list nat) i k k' : NoDup l -> NoDup l' -> nth_error l i = Some k -> nth_error l' i = Some k' -> forall j m m', nth_error l j = Some m -> nth_error l' j = Some m' -> Nat.eqb k m = Nat.eqb k' m'.
Proof.
  intros N N' A B j m m' C D. apply Bool.eq_true_iff_eq. rewrite !Nat.eqb_eq. split; intros ->.
  - assert (i = j) by (apply (proj1 (NoDup_nth_error l) N); [apply nth_error_Some; congruence|congruence]). subst. congruence.
  - assert (i = j) by (apply (proj1 (NoDup_nth_error l') N'); [apply nth_error_Some; congruence|congruence]). subst. congruence.
Qed.
Lemma rl_eq i i' j j' : rl i i' -> rl j j' -> Nat.eqb i j = Nat.eqb i' j'.
Proof. intros (k & A & B) (m & C & D). eapply (NoDup_eqb _ _ k i i' (rn_la _ _ _ _ _ _ _ _ RN) (rn_lb _ _ _ _ _ _ _ _ RN)); eauto. Qed.

Lemma name_refl l g : plain_names l -> In g l -> py_eq g g = true.
Proof. intros (N & _) I. apply py_eq_refl. intros ->. auto. Qed.
Lemma names_eqb cols i j g h : distinct_cols cols -> plain_names cols -> nth_error cols i = Some g -> nth_error cols j = Some h -> py_eq g h = Nat.eqb i j.
Proof.
  intros D N A B. destruct (Nat.eqb_spec i j) as [->|NE].
  - assert (g = h) by congruence. subst. apply (name_refl cols); auto. eapply nth_error_In; eauto.
  - apply Bool.not_true_iff_false. intros Q. apply NE. eapply D; eauto.
Qed.
Lemma names_streqb cols i j g h : plain_names cols -> nth_error cols i = Some g -> nth_error cols j = Some h -> str_eqb (py_str g) (py_str h) = Nat.eqb i j.
Proof.
  intros (_ & N & _) A B. destruct (Nat.eqb_spec i j) as [->|NE].
  - assert (g = h) by congruence. subst. apply str_eqb_refl.
  - apply Bool.not_true_iff_false. intros Q. apply str_eqb_eq in Q. apply NE.
    apply (proj1 (NoDup_nth_error _) N); [apply nth_error_Some; rewrite nth_error_map, A; discriminate|]. rewrite !nth_error_map, A, B. cbn. congruence.
Qed.
Lemma rf_eq g g' h h' : rf g g' -> rf h h' -> py_eq g h = py_eq g' h'.
Proof.
  intros (j & A & B) (k & C & D). destruct xgood as [[_ G1] [_ G2]].
  rewrite (names_eqb _ _ _ _ _ G1 (rn_na _ _ _ _ _ _ _ _ RN) A C), (names_eqb _ _ _ _ _ G2 (rn_nb _ _ _ _ _ _ _ _ RN) B D). reflexivity.
Qed.
Lemma rv_eq j v v' w w' : j < length (fcols xa) -> rv j v v' -> rv j w w' -> py_eq v w = py_eq v' w' /\ str_eqb (py_str v) (py_str w) = str_eqb (py_str v') (py_str w').
Proof. intros J (i & A & -> & ->) (k & B & -> & ->). split; [apply (rn_pat _ _ _ _ _ _ _ _ RN)|apply (rn_str _ _ _ _ _ _ _ _ RN)]; auto. Qed.
Lemma rv_uniq j v v' w w' : j < length (fcols xa) -> rv j v v' -> rv j w w' -> uniq_eq v w = uniq_eq v' w'.
Proof.
  intros J A B. unfold uniq_eq. rewrite !is_nan_refl. destruct (rv_eq _ _ _ _ _ J A B) as [-> _]. destruct (rv_eq _ _ _ _ _ J A A) as [-> _]. destruct (rv_eq _ _ _ _ _ J B B) as [-> _]. reflexivity.
Qed.
Lemma rc_eq c c' d d' : rc c c' -> rc d d' -> cond_eqb c d = cond_eqb c' d'.
Proof.
  intros (j & A & B & V) (k & C & D & V'). unfold cond_eqb. rewrite (rf_eq (cfeat c) (cfeat c') (cfeat d) (cfeat d')) by (eexists; eauto).
  destruct xgood as [_ [_ G2]]. rewrite (names_eqb _ _ _ _ _ G2 (rn_nb _ _ _ _ _ _ _ _ RN) B D). destruct (Nat.eqb_spec j k) as [<-|]; [|reflexivity]. cbn [andb].
  apply (rv_eq j); auto. apply nth_error_Some. congruence.
Qed.
Lemma cond_str_eqb cols c d i j : plain_names cols -> nth_error cols i = Some (cfeat c) -> nth_error cols j = Some (cfeat d) ->
  str_eqb (cond_str c) (cond_str d) = Nat.eqb i j && str_eqb (py_str (cval c)) (py_str (cval d)).
Proof.
  intros N A B. apply Bool.eq_true_iff_eq. rewrite Bool.andb_true_iff, <- (names_streqb cols i j _ _ N A B), !str_eqb_eq. unfold cond_str. split.
  - intros H. apply eq_split in H; auto; destruct N as (_ & _ & N); apply N; eapply nth_error_In; eauto.
  - intros [-> ->]. reflexivity.
Qed.
Lemma rc_str c c' d d' : rc c c' -> rc d d' -> str_eqb (cond_str c) (cond_str d) = str_eqb (cond_str c') (cond_str d').
Proof.
  intros (j & A & B & V) (k & C & D & V'). rewrite (cond_str_eqb _ _ _ _ _ (rn_na _ _ _ _ _ _ _ _ RN) A C), (cond_str_eqb _ _ _ _ _ (rn_nb _ _ _ _ _ _ _ _ RN) B D).
  destruct (Nat.eqb_spec j k) as [<-|]; [|reflexivity]. cbn [andb]. apply (rv_eq j); auto. apply nth_error_Some. congruence.
Qed.

(** ** cells *)
Lemma cell_val q i j r g : good_frame q -> plain_names (fcols q) -> nth_error (frows q) i = Some r -> nth_error (fcols q) j = Some g -> cell (fcols q) g r = Some (val q i j).
Proof.
  intros [W D] N R G. apply cell_value_at; auto. exists j, g. split; [auto|]. split; [apply (name_refl (fcols q)); auto; eapply nth_error_In; eauto|].
  unfold val. rewrite (nth_error_nth _ _ (mkrow 0 []) R). apply nth_error_nth'. rewrite (W r) by (eapply nth_error_In; eauto). apply nth_error_Some. congruence.
Qed.
Lemma cell_full q g0 x i j r g : good_frame q -> drop_col q g0 = Ok x -> plain_names (fcols x) -> nth_error (frows q) i = Some r -> nth_error (fcols x) j = Some g ->
  py_eq g0 g = false /\ has_col q g = true /\ cell (fcols q) g r = Some (val x i j).
Proof.
  intros G D N R C. assert (NX := drop_col_good _ _ _ G D). destruct (drop_col_values _ _ _ G D) as [P V].
  assert (Q : py_eq g g = true) by (apply (name_refl (fcols x)); auto; eapply nth_error_In; eauto).
  assert (K : column_present x g) by (exists g; split; auto; eapply nth_error_In; eauto). apply P in K. destruct K as [K1 K2].
  split; [auto|]. split; [apply has_col_iff; auto|]. destruct (nth_error (frows x) i) as [r'|] eqn:R'.
  - apply (cell_value_at _ _ _ _ (proj2 G)). apply (V i r r' R R' g); auto. apply (cell_value_at _ _ _ _ (proj2 (proj1 NX))). apply cell_val; auto. apply NX.
  - exfalso. apply nth_error_None in R'. rewrite (drop_len _ _ _ D) in R'. assert (i < length (frows q)) by (apply nth_error_Some; congruence). lia.
Qed.
Lemma rr_lab r r' : rr r r' -> rl (rlab r) (rlab r').
Proof. intros (i & A & B). exists i. unfold labels. rewrite !nth_error_map, A, B. auto. Qed.
Lemma rx_lab r r' : rx r r' -> rl (rlab r) (rlab r').
Proof.
  intros (i & A & B). exists i. rewrite <- (drop_labels_same _ _ _ (rn_xa _ _ _ _ _ _ _ _ RN)), <- (drop_labels_same _ _ _ (rn_xb _ _ _ _ _ _ _ _ RN)). unfold labels. rewrite !nth_error_map, A, B. auto.
Qed.
Lemma nth_lt {A} (l : list A) i x : nth_error l i = Some x -> i < length l. Proof. intros H. apply nth_error_Some. congruence. Qed.
Lemma rr_cell r r' c c' : rr r r' -> rc c c' -> cell_eq (fcols a) (cfeat c) (cval c) r = cell_eq (fcols b) (cfeat c') (cval c') r'.
Proof.
  intros (i & A & B) (j & C & D & V). unfold cell_eq.
  destruct (cell_full _ _ _ _ _ _ _ (rn_a _ _ _ _ _ _ _ _ RN) (rn_xa _ _ _ _ _ _ _ _ RN) (rn_na _ _ _ _ _ _ _ _ RN) A C) as (_ & _ & ->).
  destruct (cell_full _ _ _ _ _ _ _ (rn_b _ _ _ _ _ _ _ _ RN) (rn_xb _ _ _ _ _ _ _ _ RN) (rn_nb _ _ _ _ _ _ _ _ RN) B D) as (_ & _ & ->).
  apply (rv_eq j); auto; [eapply nth_lt; eauto|]. exists i. split; auto. eapply nth_lt; eauto.
Qed.
Lemma rx_cell r r' c c' : rx r r' -> rc c c' -> cell_eq (fcols xa) (cfeat c) (cval c) r = cell_eq (fcols xb) (cfeat c') (cval c') r'.
Proof.
  intros (i & A & B) (j & C & D & V). unfold cell_eq. destruct xgood as [G1 G2].
  rewrite (cell_val _ _ _ _ _ G1 (rn_na _ _ _ _ _ _ _ _ RN) A C), (cell_val _ _ _ _ _ G2 (rn_nb _ _ _ _ _ _ _ _ RN) B D).
  apply (rv_eq j); auto; [eapply nth_lt; eauto|]. exists i. split; auto. rewrite <- (proj1 xlen). eapply nth_lt; eauto.
Qed.
Lemma rr_all : Forall2 rr (frows a) (frows b).
Proof. apply Forall2_of_nth; [apply (rn_len _ _ _ _ _ _ _ _ RN)|]. intros i r s R S. exists i. auto. Qed.
Lemma rx_all : Forall2 rx (frows xa) (frows xb).
Proof. apply Forall2_of_nth; [rewrite (proj1 xlen), (proj2 xlen); auto|]. intros i r s R S. exists i. auto. Qed.
Lemma rf_all : Forall2 rf (fcols xa) (fcols xb).
Proof. apply Forall2_of_nth; [apply (rn_cols _ _ _ _ _ _ _ _ RN)|]. intros i r s R S. exists i. auto. Qed.
Lemma has_f : has_col a f = true /\ has_col b f' = true.
Proof.
  pose proof (rn_xa _ _ _ _ _ _ _ _ RN) as A. pose proof (rn_xb _ _ _ _ _ _ _ _ RN) as B.
  assert (K : forall q g x, drop_col q g = Ok x -> has_col q g = true).
  { intros q g x H. destruct (drop_rows _ _ _ H) as (j & J & _). apply col_pos_spec in J. destruct J as (c & J1 & J2). apply has_col_iff. exists c. split; auto. eapply nth_error_In; eauto. }
  eauto.
Qed.
Lemma rr_pos r r' : rr r r' -> cell_eq (fcols a) f p r = cell_eq (fcols b) f' p' r'.
Proof.
  intros (i & R & S). destruct has_f as [Ha Hb]. assert (M := f_equal (fun l => nth_error l i) (rn_pos _ _ _ _ _ _ _ _ RN)). cbv beta in M.
  rewrite !nth_error_map, !column_nth, R, S in M by (auto; apply (rn_a _ _ _ _ _ _ _ _ RN) || apply (rn_b _ _ _ _ _ _ _ _ RN)). cbn [option_map] in M. injection M as M.
  destruct (cell_some a f r) as (v & V); [apply (rn_a _ _ _ _ _ _ _ _ RN)|auto|eapply nth_error_In; eauto|]. destruct (cell_some b f' r') as (u & U); [apply (rn_b _ _ _ _ _ _ _ _ RN)|auto|eapply nth_error_In; eauto|].
  unfold cell_eq, cell_or in *. rewrite V, U in *. exact M.
Qed.
Lemma rr_rx r r' : rr r r' -> forall ja jb, col_pos (fcols a) f = Some ja -> col_pos (fcols b) f' = Some jb -> rx (mkrow (rlab r) (remove_nth ja (rcells r))) (mkrow (rlab r') (remove_nth jb (rcells r'))).
Proof.
  intros (i & R & S) ja jb A B. destruct (drop_rows _ _ _ (rn_xa _ _ _ _ _ _ _ _ RN)) as (j & J & E). destruct (drop_rows _ _ _ (rn_xb _ _ _ _ _ _ _ _ RN)) as (k & K & E').
  rewrite A in J. injection J as <-. rewrite B in K. injection K as <-. exists i. rewrite E, E', !nth_error_map, R, S. auto.
Qed.
Lemma drop_some q g x rows : drop_col q g = Ok x -> exists j, col_pos (fcols q) g = Some j /\ drop_col (with_rows q rows) g = Ok (mkframe (fcols x) (map (fun r => mkrow (rlab r) (remove_nth j (rcells r))) rows)).
Proof. unfold drop_col. cbn [with_rows fcols frows]. destruct (col_pos (fcols q) g) as [j|]; [|discriminate]. intros H. apply ok_inj in H. subst x. eauto. Qed.
Lemma split_rn : exists pa na pb nb pa' na' pb' nb', pos_neg_split a f p = Ok (pa, na) /\ pos_neg_split b f' p' = Ok (pb, nb) /\
  Forall2 rl (labels (frows pa)) (labels (frows pb)) /\ Forall2 rl (labels (frows na)) (labels (frows nb)) /\
  drop_col pa f = Ok pa' /\ drop_col na f = Ok na' /\ drop_col pb f' = Ok pb' /\ drop_col nb f' = Ok nb' /\
  fcols pa' = fcols xa /\ fcols na' = fcols xa /\ fcols pb' = fcols xb /\ fcols nb' = fcols xb /\ Forall2 rx (frows pa') (frows pb') /\ Forall2 rx (frows na') (frows nb').
Proof.
  destruct has_f as [Ha Hb]. unfold pos_neg_split. rewrite Ha, Hb.
  destruct (drop_some _ _ _ (pos_rows a f p) (rn_xa _ _ _ _ _ _ _ _ RN)) as (ja & A & D1). destruct (drop_some _ _ _ (neg_rows a f p) (rn_xa _ _ _ _ _ _ _ _ RN)) as (ja' & A' & D2).
  destruct (drop_some _ _ _ (pos_rows b f' p') (rn_xb _ _ _ _ _ _ _ _ RN)) as (jb & B & D3). destruct (drop_some _ _ _ (neg_rows b f' p') (rn_xb _ _ _ _ _ _ _ _ RN)) as (jb' & B' & D4).
  assert (ja' = ja) by congruence. assert (jb' = jb) by congruence. subst.
  assert (FP : Forall2 rr (pos_rows a f p) (pos_rows b f' p')) by (apply Forall2_filter; [intros; apply rr_pos; auto|apply rr_all]).
  assert (FN : Forall2 rr (neg_rows a f p) (neg_rows b f' p')) by (apply Forall2_filter; [intros; f_equal; apply rr_pos; auto|apply rr_all]).
  do 8 eexists. split; [reflexivity|]. split; [reflexivity|]. cbn [frows with_rows].
  split; [unfold labels; eapply F2_map; [|exact FP]; intros; apply rr_lab; auto|]. split; [unfold labels; eapply F2_map; [|exact FN]; intros; apply rr_lab; auto|].
  split; [exact D1|]. split; [exact D2|]. split; [exact D3|]. split; [exact D4|]. cbn [fcols frows]. do 4 (split; [reflexivity|]).
  split; [eapply F2_map; [|exact FP]|eapply F2_map; [|exact FN] ]; intros; eapply rr_rx; eauto.
Qed.

(** ** columns *)
Lemma column_rv j g g' rows rows' : nth_error (fcols xa) j = Some g -> nth_error (fcols xb) j = Some g' -> Forall2 rx rows rows' ->
  Forall2 (rv j) (column (mkframe (fcols xa) rows) g) (column (mkframe (fcols xb) rows') g').
Proof.
  intros G G' F. destruct xgood as [G1 G2]. unfold column. cbn [fcols frows]. eapply F2_flat_map; [|exact F]. intros r r' (i & A & B).
  rewrite (cell_val _ _ _ _ _ G1 (rn_na _ _ _ _ _ _ _ _ RN) A G), (cell_val _ _ _ _ _ G2 (rn_nb _ _ _ _ _ _ _ _ RN) B G'). constructor; [|constructor].
  exists i. split; auto. rewrite <- (proj1 xlen). eapply nth_lt; eauto.
Qed.
Lemma unique_rv j l l' : j < length (fcols xa) -> Forall2 (rv j) l l' -> Forall2 (rv j) (unique l) (unique l').
Proof. intros J F. unfold unique. apply (F2_dedup (rv j)); auto. intros. apply (rv_uniq j); auto. Qed.
Lemma frame_eta x : mkframe (fcols x) (frows x) = x. Proof. destruct x; reflexivity. Qed.
Lemma conds_rn : Forall2 rc (cn_possible_conds xa) (cn_possible_conds xb).
Proof.
  unfold cn_possible_conds. eapply F2_flat_map; [|exact rf_all]. intros g g' (j & A & B). eapply F2_map with (R := rv j).
  - intros v v' V. exists j. auto.
  - apply unique_rv; [eapply nth_lt; eauto|]. rewrite <- (frame_eta xa), <- (frame_eta xb). cbn [fcols]. rewrite !frame_eta. rewrite <- (frame_eta xa) at 1. rewrite <- (frame_eta xb) at 1. apply column_rv; auto. apply rx_all.
Qed.
Lemma cn_rn : exists cn cn', cn_make a f = Ok cn /\ cn_make b f' = Ok cn' /\ Forall2 rc (cn_conds cn) (cn_conds cn') /\
  Forall2 (fun q q' => rc (fst q) (fst q') /\ Forall2 rl (snd q) (snd q')) (cn_maps cn) (cn_maps cn') /\ Forall2 rl (cn_all cn) (cn_all cn').
Proof.
  unfold cn_make. rewrite (rn_xa _ _ _ _ _ _ _ _ RN), (rn_xb _ _ _ _ _ _ _ _ RN). cbn [bind]. do 2 eexists. split; [reflexivity|]. split; [reflexivity|]. cbn [cn_conds cn_maps cn_all].
  split; [apply conds_rn|]. split; [|eapply F2_map; [|exact rr_all]; intros; apply rr_lab; auto].
  eapply F2_map; [|exact conds_rn]. intros c c' C. cbn [fst snd]. split; [auto|]. unfold labels. eapply F2_map; [intros; apply rx_lab; eauto|]. apply Forall2_filter; [|apply rx_all]. intros. apply rx_cell; auto.
Qed.
(** the candidate conditions of the slow path, when the values are kept *)
Hypothesis KEEP : forall i j, i < length (frows a) -> j < length (fcols xa) -> val xa i j = val xb i j.
Lemma rv_same j v v' : j < length (fcols xa) -> rv j v v' -> v = v'.
Proof. intros J (i & I & -> & ->). apply KEEP; auto. Qed.
Lemma F2_eq {A} (l l' : list A) : Forall2 eq l l' -> l = l'. Proof. intros F. induction F; congruence. Qed.
Lemma F2_imp {A B} (R S : A -> B -> Prop) l l' : (forall x y, R x y -> S x y) -> Forall2 R l l' -> Forall2 S l l'. Proof. intros H F. induction F; constructor; auto. Qed.
Lemma upd_rn so so' old old' rp rp' rn rn' : (forall l, so l = so' l) -> (forall l v, In v (so l) -> In v l) ->
  Forall2 rc old old' -> Forall2 rx rp rp' -> Forall2 rx rn rn' -> Forall2 rc (update_possible_conds so old (mkframe (fcols xa) rp) (mkframe (fcols xa) rn)) (update_possible_conds so' old' (mkframe (fcols xb) rp') (mkframe (fcols xb) rn')).
Proof.
  intros SE SI FO FP FN. unfold update_possible_conds. apply F2_app; [auto|]. cbn [fcols]. eapply F2_flat_map; [|exact rf_all]. intros g g' (j & A & B). assert (J := nth_lt _ _ _ A).
  assert (CP := column_rv j g g' rp rp' A B FP). assert (CN := column_rv j g g' rn rn' A B FN).
  assert (EP := F2_eq _ _ (F2_imp _ _ _ _ (fun x y => rv_same j x y J) CP)). assert (EN := F2_eq _ _ (F2_imp _ _ _ _ (fun x y => rv_same j x y J) CN)).
  unfold shared_values. rewrite <- EP, <- EN, <- SE. set (l := so _).
  assert (HL : forall v, In v l -> exists i, i < length (frows a) /\ v = val xa i j).
  { intros v I. apply SI in I. apply filter_In in I. destruct I as [I _]. apply unique_In in I. clear -I CP. revert I. induction CP as [|x y q q' (i & Hi & E & _) F IH]; intros I; [destruct I|]. destruct I as [<-|I]; eauto. }
  clearbody l. induction l as [|v l IH]; [constructor|]. cbn [map]. constructor; [|apply IH; intros; apply HL; right; auto].
  destruct (HL v (or_introl eq_refl)) as (i & Hi & E). exists j. split; [auto|]. split; [auto|]. exists i. split; [auto|]. split; [auto|]. cbn [cval]. rewrite <- KEEP; auto.
Qed.
End REN.
