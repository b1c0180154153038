(** Lemmas for C92. *)
From Coq Require Import Lia.
From Verif Require Import Base BaseFacts StrOps Corr Table Charset Converter Neologdn ModifierKind PathModel Yaml File ChanomaModel
  Configuration PyProgram RustProgram Spec TableFacts CharsetFacts CorrFacts CorrProps PropsConverter PropsNeo PropsPipeline
  FileSpec PathSpec ConfigSpec BinSpec PySpec FileProps PathProps YamlProps ConfigProps BinProps PyProps PropsTableFile PropsLog RustSpec.

(** ** Tables *)
Lemma csv_lists_iff w p items : csv_lists w p items <-> table_from_csv_path w p = Ok (Table items (OriginFile p)).
Proof.
  rewrite C39_iff. split.
  - intros (recs & rows & A & B & C & D). exists recs, rows. auto.
  - intros (recs & rows & A & B & C & D & _). exists recs, rows. auto.
Qed.
Lemma yaml_lists_iff w p items : yaml_lists w p items <-> table_from_yaml_path w p = Ok (Table items (OriginFile p)).
Proof.
  rewrite C42_iff. split.
  - intros (data & A & B). exists data. auto.
  - intros (data & A & B & _). exists data. auto.
Qed.
Lemma csv_loaded w p t : table_from_csv_path w p = Ok t -> csv_lists w p (table_items t).
Proof. intros H. apply C39_iff in H as (recs & rows & A & B & C & D & _). exists recs, rows. auto. Qed.
Lemma yaml_loaded w p t : table_from_yaml_path w p = Ok t -> yaml_lists w p (table_items t).
Proof. intros H. apply C42_iff in H as (data & A & B & _). exists data. auto. Qed.
Lemma csv_lists_unique w p l l' : csv_lists w p l -> csv_lists w p l' -> l = l'.
Proof. intros H H'. apply csv_lists_iff in H, H'. congruence. Qed.
Lemma yaml_lists_unique w p l l' : yaml_lists w p l -> yaml_lists w p l' -> l = l'.
Proof. intros H H'. apply yaml_lists_iff in H, H'. congruence. Qed.
Lemma union_unique l items items' a b : (forall it, In it items <-> In it items') -> union_of l items a -> union_of l items' b -> a = b.
Proof.
  intros E [A1 A2] [B1 B2]. apply strict_ext; [exact A1|exact B1|]. intros it. rewrite A2, B2, E. reflexivity.
Qed.
Lemma difference_unique l items a b : difference_of l items a -> difference_of l items b -> a = b.
Proof.
  intros [A1 A2] [B1 B2]. apply ordered_perm_eq; try assumption. apply (Permutation_count_occ item_eq_dec).
  intros it. rewrite A2, B2. reflexivity.
Qed.
Lemma add_union o t c items : c (sub o 1) = items -> union_of (table_items t) items (table_items (table_add o t c)).
Proof. intros <-. split; [apply table_add_strict|]. intros it. apply table_add_In. Qed.
Lemma remove_difference o t items : difference_of (table_items t) items (table_items (table_remove o t (synth items))).
Proof. exact (C34_lemma o (synth (table_items t)) (synth items)). Qed.

(** ** Stages *)
Lemma csv_stage w p items : csv_lists w p items <-> file_items w p Csv items.
Proof. split; intros (recs & rows & H); exists recs, rows; exact H. Qed.
Lemma config_stages o w p c : from_config_file o w p = Ok c -> exists effs, file_stages w p effs /\ Forall2 realises c effs.
Proof.
  intros H. destruct (config_ext _ _ _ _ H) as [X|X].
  - apply (C44_csv o w p c X) in H as (items & cc & HI & H5 & -> & ->). exists [replaces items].
    split; [apply fs_csv; [exact X|apply csv_stage, HI|exact H5]|].
    constructor; [apply realises_conv, conv_collect_rel, H5|constructor].
  - apply (C44_yaml o w p c X) in H as (items & ms & (data & H1 & H2) & H5 & H6 & ->).
    rewrite (yaml_modifiers_iff o w p data H1) in H6. apply modifiers_ok_inv in H6 as (effs & H6 & H7).
    exists (effs ++ [replaces items]). split; [eapply fs_yaml; eassumption|].
    apply F2_snoc; [exact H7|]. apply realises_conv, conv_collect_rel, H5.
Qed.
Lemma stages_config o w p effs : file_stages w p effs -> exists c, from_config_file o w p = Ok c.
Proof.
  intros H. destruct H as [items X H1 H2|data items effs X H1 H2 H3 H4].
  - destruct H1 as (recs & rows & A & B & C & D). eapply C44_if, fe_csv; eassumption.
  - eapply C44_if, fe_yaml; eassumption.
Qed.
Lemma file_stages_unique w p a b : file_stages w p a -> file_stages w p b -> a = b.
Proof.
  intros H H'. destruct H as [items X A _|data items effs X A B _ C]; destruct H' as [items' X' A' _|data' items' effs' X' A' B' _ C'];
    try (exfalso; eauto using csv_not_yaml; fail).
  - rewrite (csv_lists_unique _ _ _ _ A A'). reflexivity.
  - rewrite A in A'. injection A' as <-. rewrite (described_unique _ _ _ B B'), (modifiers_unique _ _ _ C C'). reflexivity.
Qed.
Lemma rc_stages_unique w a b : rc_stages w a -> rc_stages w b -> a = b.
Proof.
  intros [(s & E & _ & _ & H)|(U & parts & F & ->)] [(s' & E' & _ & _ & H')|(U' & parts' & F' & ->)].
  - rewrite E in E'. injection E' as <-. eapply file_stages_unique; eassumption.
  - destruct (U' _ E).
  - destruct (U _ E').
  - f_equal. clear U U'. revert parts' F'. induction F as [|p e l effs He _ IH]; intros parts' F'; inversion F'; subst; [reflexivity|].
    f_equal; [eapply file_stages_unique; eassumption|apply IH; assumption].
Qed.
Lemma files_stages o w ps cs : Forall2 (fun p c' => from_config_file o w p = Ok c') ps cs ->
  exists parts, Forall2 (file_stages w) ps parts /\ Forall2 realises (concat cs) (concat parts).
Proof.
  induction 1 as [|p c ps cs H _ (parts & F & R)]; [exists []; split; constructor|].
  apply config_stages in H as (effs & He & Hr). exists (effs :: parts). split; [constructor; assumption|].
  cbn [concat]. apply Forall2_app; assumption.
Qed.
Lemma stages_of_effect w p e : file_effect w p e -> exists effs, file_stages w p effs.
Proof.
  intros H. destruct (C44_if no_order w p e H) as (c & Hc). apply config_stages in Hc as (effs & Hs & _). eauto.
Qed.
Lemma effect_of_stages w p effs : file_stages w p effs -> exists e, file_effect w p e.
Proof.
  intros H. destruct (stages_config no_order w p effs H) as (c & Hc). apply C44_ok in Hc as (_ & e & He & _). eauto.
Qed.
Lemma rc_loaded o w c : good_env w -> load_rc o w = Ok c -> exists effs, rc_stages w effs /\ Forall2 realises c effs.
Proof.
  intros G H. destruct (rc_ok o w c G H) as (e & [(s & E & F & X & _)|(U & _)] & _).
  - destruct (C45_lemma o w s E (G s E)) as (_ & B & _). rewrite (B F X) in H. apply config_stages in H as (effs & Hs & R).
    exists effs. split; [|exact R]. left. exists s. auto.
  - apply (C46_ok o w c U) in H as (cs & F & ->). destruct (files_stages o w _ cs F) as (parts & Fp & R).
    exists (concat parts). split; [|exact R]. right. split; [exact U|]. exists parts. auto.
Qed.
Lemma rc_loads o w effs : good_env w -> rc_stages w effs -> exists c, load_rc o w = Ok c.
Proof.
  intros G [(s & E & F & X & H)|(U & parts & F & ->)].
  - destruct (effect_of_stages _ _ _ H) as (e & He). apply (rc_if o w e G). left. exists s. auto.
  - assert (Q : exists effs, Forall2 (file_effect w) (filter (w_is_file w) (candidates (w_home w) (w_cwd w))) effs).
    { clear U. induction F as [|p e l parts He _ (es & IH)]; [exists []; constructor|]. destruct (effect_of_stages _ _ _ He) as (x & Hx).
      exists (x :: es). constructor; assumption. }
    destruct Q as (es & Q). apply (rc_if o w (in_sequence es) G). right. split; [exact U|]. exists es. auto.
Qed.
Lemma preset_stage : realises (MConv PRESET) (pointwise preset_rel).
Proof. exact realises_preset. Qed.
Lemma table_stage t c : chanoma_from_table t = Ok c -> no_empty_string (table_items t) /\ Forall2 realises c [replaces (table_items t)].
Proof.
  unfold chanoma_from_table. rewrite from_tables_one. destruct (forallb nonempty_item (table_items t)) eqn:E; [|discriminate].
  intros H. cbn in H. injection H as <-. apply no_empty_iff in E. split; [exact E|].
  constructor; [apply realises_conv, conv_collect_rel, E|constructor].
Qed.
Lemma table_panics t : (exists c, chanoma_from_table t = Ok c) \/ (chanoma_from_table t = Panic /\ ~ no_empty_string (table_items t)).
Proof.
  unfold chanoma_from_table. rewrite from_tables_one. destruct (forallb nonempty_item (table_items t)) eqn:E; cbn [bind]; [eauto|].
  right. split; [reflexivity|]. intros X. apply no_empty_iff in X. congruence.
Qed.
Lemma add_table_eq t c : add_table t c = (x <- chanoma_from_table t ;; Ok (c ++ x)).
Proof. unfold add_table, chanoma_from_table. destruct (from_tables [t]); reflexivity. Qed.

(** ** Determinacy *)
Lemma exists_mt v w k l : makes_table v w k l -> objects_exist v k.
Proof.
  intros H; destruct H; split; cbn [tables_named chanomas_named In]; intros x X; try contradiction.
  destruct X as [<-|[]]. apply nth_error_Some. congruence.
Qed.
Lemma exists_ct v w k i l l' : nth_error (rv_tables v) i = Some l -> changes_table v w k i l l' -> objects_exist v k.
Proof.
  intros E H; destruct H; split; cbn [tables_named chanomas_named In]; intros x X; try contradiction;
    repeat match goal with H : _ \/ _ |- _ => destruct H end; try contradiction; subst; apply nth_error_Some; congruence.
Qed.
Lemma exists_mc v w k effs : makes_chanoma v w k effs -> objects_exist v k.
Proof.
  intros H; destruct H; split; cbn [tables_named chanomas_named In]; intros x X; try contradiction.
  destruct X as [<-|[]]. apply nth_error_Some. congruence.
Qed.
Lemma exists_as v k n e effs : nth_error (rv_chanomas v) n = Some effs -> adds_stage v k n e -> objects_exist v k.
Proof.
  intros E H; destruct H; split; cbn [tables_named chanomas_named In]; intros x X; try contradiction;
    destruct X as [<-|[]]; apply nth_error_Some; congruence.
Qed.
Lemma mt_unique v w k a b : makes_table v w k a -> makes_table v w k b -> a = b.
Proof.
  intros H H'. destruct H; inversion H'; subst; try reflexivity; try congruence.
  - assert (q = q0) by congruence. subst. eapply csv_lists_unique; eassumption.
  - assert (q = q0) by congruence. subst. eapply yaml_lists_unique; eassumption.
Qed.
Lemma ct_unique v w k i l a j l2 b : changes_table v w k i l a -> nth_error (rv_tables v) i = Some l ->
  changes_table v w k j l2 b -> nth_error (rv_tables v) j = Some l2 -> i = j /\ a = b.
Proof.
  intros H E H' E'. destruct H; inversion H'; subst; (split; [reflexivity|]); assert (l2 = l) by congruence; subst.
  all: try (assert (lj0 = lj) by congruence; subst).
  all: try (eapply difference_unique; eassumption).
  all: try (eapply union_unique; [|eassumption|eassumption]; reflexivity).
  - eapply union_unique; [|eassumption|eassumption]. intros it. rewrite H, H2. reflexivity.
  - match goal with A : csv_lists _ _ _, B : csv_lists _ _ _ |- _ => pose proof (csv_lists_unique _ _ _ _ A B); subst end. eapply union_unique; [|eassumption|eassumption]; reflexivity.
  - match goal with A : yaml_lists _ _ _, B : yaml_lists _ _ _ |- _ => pose proof (yaml_lists_unique _ _ _ _ A B); subst end. eapply union_unique; [|eassumption|eassumption]; reflexivity.
Qed.
Lemma mc_unique v w k a b : makes_chanoma v w k a -> makes_chanoma v w k b -> a = b.
Proof.
  intros H H'. destruct H; inversion H'; subst; try reflexivity; try congruence.
  - eapply rc_stages_unique; eassumption.
  - eapply file_stages_unique; eassumption.
Qed.
Lemma as_unique v k n e n' e' : adds_stage v k n e -> adds_stage v k n' e' -> n = n' /\ e = e'.
Proof. intros H H'. destruct H; inversion H'; subst; split; congruence. Qed.
Lemma replaced_iff {A} (l : list A) i x l' : replaced l i x l' <-> i < length l /\ l' = update i x l.
Proof.
  split.
  - intros (a & y & b & -> & <- & ->). rewrite app_length. cbn [length]. split; [lia|]. symmetry. apply update_app.
  - intros [L ->]. destruct (nth_error l i) as [y|] eqn:E; [|apply nth_error_None in E; lia].
    destruct (nth_error_split _ _ E) as (a & b & -> & <-). exists a, y, b. rewrite update_app. auto.
Qed.
Lemma replaced_unique {A} (l : list A) i x a b : replaced l i x a -> replaced l i x b -> a = b.
Proof. intros H H'. apply replaced_iff in H as [_ ->]. apply replaced_iff in H' as [_ ->]. reflexivity. Qed.
Definition asks (k : r_call) : Prop := match k with RNormalize _ _ | RPositions _ _ => True | _ => False end.
Ltac uniq :=
  match goal with
  | A : makes_table ?v ?w ?k ?a, B : makes_table ?v ?w ?k ?b |- _ => pose proof (mt_unique v w k a b A B); subst; clear B
  | A : makes_chanoma ?v ?w ?k ?a, B : makes_chanoma ?v ?w ?k ?b |- _ => pose proof (mc_unique v w k a b A B); subst; clear B
  | A : changes_table ?v ?w ?k ?i ?l ?a, E : nth_error (rv_tables ?v) ?i = Some ?l, B : changes_table ?v ?w ?k ?j ?m ?b, F : nth_error (rv_tables ?v) ?j = Some ?m |- _ =>
      destruct (ct_unique v w k i l a j m b A E B F); subst; clear B
  | A : adds_stage ?v ?k ?n ?e, B : adds_stage ?v ?k ?m ?f |- _ => destruct (as_unique v k n e m f A B); subst; clear B
  end.
Ltac absurd_case :=
  match goal with
  | N : ~ objects_exist ?v ?k, A : makes_table ?v _ ?k _ |- _ => destruct (N (exists_mt _ _ _ _ A))
  | N : ~ objects_exist ?v ?k, A : makes_chanoma ?v _ ?k _ |- _ => destruct (N (exists_mc _ _ _ _ A))
  | N : ~ objects_exist ?v ?k, A : changes_table ?v _ ?k _ _ _, E : nth_error (rv_tables ?v) _ = Some _ |- _ => destruct (N (exists_ct _ _ _ _ _ _ E A))
  | N : ~ objects_exist ?v ?k, A : adds_stage ?v ?k _ _, E : nth_error (rv_chanomas ?v) _ = Some _ |- _ => destruct (N (exists_as _ _ _ _ _ E A))
  | N : ~ objects_exist ?v ?k, A : objects_exist ?v ?k |- _ => destruct (N A)
  | N : forall l, ~ makes_table ?v ?w ?k l, A : makes_table ?v ?w ?k ?l |- _ => destruct (N l A)
  | N : forall l, ~ makes_chanoma ?v ?w ?k l, A : makes_chanoma ?v ?w ?k ?l |- _ => destruct (N l A)
  | N : forall i l l', ~ changes_table ?v ?w ?k i l l', A : changes_table ?v ?w ?k ?i ?l ?l' |- _ => destruct (N i l l' A)
  | A : reads_files _ |- _ => exact (False_ind _ A)
  end.
(** Which kind a call is. *)
Lemma kinds v w k :
  (forall l effs, makes_table v w k l -> makes_chanoma v w k effs -> False) /\
  (forall l i x y, makes_table v w k l -> changes_table v w k i x y -> False) /\
  (forall l n e, makes_table v w k l -> adds_stage v k n e -> False) /\
  (forall effs i x y, makes_chanoma v w k effs -> changes_table v w k i x y -> False) /\
  (forall effs n e, makes_chanoma v w k effs -> adds_stage v k n e -> False) /\
  (forall n e i x y, adds_stage v k n e -> changes_table v w k i x y -> False).
Proof. repeat split; intros until 1; intros B; destruct H; inversion B. Qed.
Lemma det v w dbg k a b v1 v2 : r_allowed v w dbg k a v1 -> r_allowed v w dbg k b v2 -> v1 = v2 /\ (~ asks k -> r_same k a b).
Proof.
  intros H H'. destruct (kinds v w k) as (K1 & K2 & K3 & K4 & K5 & K6).
  destruct H; inversion H'; subst; try absurd_case; try (exfalso; eauto; fail).
  all: clear K1 K2 K3 K4 K5 K6; repeat uniq.
  all: repeat match goal with H : _ = RFromTable _ \/ _ |- _ => destruct H as [H|(? & H)]; try discriminate H; subst end.
  all: try match goal with H : RFromTable _ = RFromTable _ |- _ => injection H as <- end.
  all: try match goal with H : RUseTable _ _ = RUseTable _ _ |- _ => injection H as <- <- end.
  all: try (exfalso; match goal with
    | N : ~ objects_exist _ _ |- _ => apply N; split; intros x X; cbn in X; try contradiction; destruct X as [<-|[]]; apply nth_error_Some; congruence
    | A : makes_table _ _ _ _ |- _ => inversion A; subst; try congruence; fail
    | A : makes_chanoma _ _ _ _ |- _ => inversion A; subst; try congruence; fail
    | A : changes_table _ _ _ _ _ _ |- _ => inversion A; subst; try congruence; fail
    | A : adds_stage _ _ _ _ |- _ => inversion A; subst; try congruence; fail
    | A : reads_files _ |- _ => exact A
    end).
  all: try (exfalso; match goal with
    | R : reads_files ?k, A : adds_stage _ ?k _ _ |- _ => destruct A; exact R
    end).
  all: try (split; [reflexivity|]; intros X; try (destruct (X I)); left; first [reflexivity|congruence]).
  - match goal with A : replaced _ _ _ _, B : replaced _ _ _ _ |- _ => rewrite (replaced_unique _ _ _ _ _ A B) end.
    split; [reflexivity|]. intros _. left. reflexivity.
  - match goal with E : nth_error (rv_chanomas v) _ = Some ?a, E' : nth_error (rv_chanomas v) _ = Some ?b |- _ => assert (a = b) by congruence; subst end.
    match goal with A : replaced _ _ _ _, B : replaced _ _ _ _ |- _ => rewrite (replaced_unique _ _ _ _ _ A B) end.
    split; [reflexivity|]. intros _. left. reflexivity.
  - split; [reflexivity|]. intros _. right. left. auto.
Qed.

(** ** Steps *)
Definition pipe_is (c : chanoma) (effs : list effect) : Prop := Forall2 realises c effs.
Definition r_sim (st : r_state) (v : r_view) : Prop :=
  map table_items (r_tables st) = rv_tables v /\ Forall2 pipe_is (r_chanomas st) (rv_chanomas v).
Lemma sim_table st v i : r_sim st v -> nth_error (rv_tables v) i = option_map table_items (nth_error (r_tables st) i).
Proof. intros [<- _]. revert i. induction (r_tables st) as [|t l IH]; intros [|i]; cbn; auto. Qed.
Lemma sim_chanoma st v n : r_sim st v ->
  match nth_error (r_chanomas st) n, nth_error (rv_chanomas v) n with Some c, Some effs => pipe_is c effs | None, None => True | _, _ => False end.
Proof. intros [_ H]. apply F2_nth, H. Qed.
Lemma map_update {A B} (f : A -> B) i x l : map f (update i x l) = update i (f x) (map f l).
Proof. revert i. induction l as [|y l IH]; intros [|i]; cbn [update map]; [reflexivity..|]. rewrite IH. reflexivity. Qed.
Definition steps_to (v : r_view) (w : world) (dbg : bool) (k : r_call) (x : r_state * r_answer) : Prop :=
  exists v', r_allowed v w dbg k (snd x) v' /\ r_sim (fst x) v'.
Definition unread (v : r_view) (w : world) (k : r_call) : Prop :=
  reads_files k /\ objects_exist v k /\ (forall l, ~ makes_table v w k l) /\ (forall i l l', ~ changes_table v w k i l l') /\
  (forall effs, ~ makes_chanoma v w k effs).
Lemma fails_sound {A} v w dbg k st (x : outcome A) keep : r_sim st v -> (forall a, x <> Ok a) -> unread v w k ->
  steps_to v w dbg k (r_made st x keep).
Proof.
  intros S N (U1 & U2 & U3 & U4 & U5). exists v. destruct x as [a|e|]; cbn [r_made fst snd]; [destruct (N a eq_refl)| |];
    (split; [|exact S]); apply ra_unreadable; eauto.
Qed.
Lemma new_table_sound v w dbg k st t : r_sim st v -> makes_table v w k (table_items t) -> steps_to v w dbg k (new_table st (Ok t)).
Proof.
  intros [S1 S2] H. eexists. split; [apply ra_new_table, H|]. split; [|exact S2]. cbn. rewrite map_app, S1. reflexivity.
Qed.
Lemma new_chanoma_sound v w dbg k st c effs : r_sim st v -> makes_chanoma v w k effs -> pipe_is c effs -> steps_to v w dbg k (new_chanoma st (Ok c)).
Proof.
  intros [S1 S2] H P. eexists. split; [apply ra_new_chanoma, H|]. split; [exact S1|]. cbn. apply F2_snoc; assumption.
Qed.
Lemma set_table_sound v w dbg k st i t t' : r_sim st v -> nth_error (r_tables st) i = Some t ->
  changes_table v w k i (table_items t) (table_items t') -> steps_to v w dbg k (set_table st i (Ok t')).
Proof.
  intros S E H. pose proof (sim_table st v i S) as Ev. rewrite E in Ev. cbn in Ev. destruct S as [S1 S2].
  eexists. split; [eapply ra_table; [exact Ev|exact H|apply replaced_iff; split; [apply nth_error_Some; congruence|reflexivity]]|].
  split; [|exact S2]. cbn. rewrite map_update, S1. reflexivity.
Qed.
Lemma set_chanoma_sound v w dbg k st n c m e : r_sim st v -> nth_error (r_chanomas st) n = Some c ->
  adds_stage v k n e -> realises m e -> steps_to v w dbg k (set_chanoma st n (Ok (c ++ [m]))).
Proof.
  intros S E H R. pose proof (sim_chanoma st v n S) as Ev. rewrite E in Ev. destruct (nth_error (rv_chanomas v) n) as [effs|] eqn:E2; [|contradiction].
  destruct S as [S1 S2].
  eexists. split; [eapply ra_stage; [exact E2|exact H|apply replaced_iff; split; [apply nth_error_Some; congruence|reflexivity]]|].
  split; [exact S1|]. cbn. apply F2_update; [exact S2|]. apply F2_snoc; assumption.
Qed.
Lemma on_table_sound v w dbg k st i f : r_sim st v -> In i (tables_named k) ->
  (forall t, nth_error (r_tables st) i = Some t -> nth_error (rv_tables v) i = Some (table_items t) -> steps_to v w dbg k (f t)) ->
  steps_to v w dbg k (on_table st i f).
Proof.
  intros S I H. unfold on_table. pose proof (sim_table st v i S) as E. destruct (nth_error (r_tables st) i) as [t|] eqn:E1; [apply H; auto|].
  exists v. split; [|exact S]. apply ra_unknown. intros [X _]. apply X, nth_error_Some in I. apply I, E.
Qed.
Lemma on_chanoma_sound v w dbg k st n f : r_sim st v -> In n (chanomas_named k) ->
  (forall c effs, nth_error (r_chanomas st) n = Some c -> nth_error (rv_chanomas v) n = Some effs -> pipe_is c effs -> steps_to v w dbg k (f c)) ->
  steps_to v w dbg k (on_chanoma st n f).
Proof.
  intros S I H. unfold on_chanoma. pose proof (sim_chanoma st v n S) as E. destruct (nth_error (r_chanomas st) n) as [c|] eqn:E1;
    destruct (nth_error (rv_chanomas v) n) as [effs|] eqn:E2; try contradiction; [eapply H; eauto|].
  exists v. split; [|exact S]. apply ra_unknown. intros [_ X]. apply X, nth_error_Some in I. apply I, E2.
Qed.
Lemma nothing_named v k : tables_named k = [] -> chanomas_named k = [] -> objects_exist v k.
Proof. intros A B. split; rewrite ?A, ?B; intros x []. Qed.
Lemma table_named_exists v k i l : tables_named k = [i] -> chanomas_named k = [] -> nth_error (rv_tables v) i = Some l -> objects_exist v k.
Proof. intros A B E. split; rewrite ?A, ?B; intros x []; [subst; apply nth_error_Some; congruence|contradiction]. Qed.
Lemma realises_constr c effs : pipe_is c effs -> Forall constructible c.
Proof. apply realises_constructible. Qed.
Lemma stages_records c : forall effs s rs, pipe_is c effs -> stages c s rs -> records_of effs s rs.
Proof.
  induction c as [|m c IH]; intros effs s rs P H; inversion P; subst; destruct rs as [|r rs]; cbn [stages] in H; try contradiction; [exact I|].
  destruct H as (_ & R & _ & H). cbn [records_of]. split; [apply (proj2 H2), R|apply IH; assumption].
Qed.
Lemma step_sound_r o w dbg k st v : good_env w -> r_sim st v -> steps_to v w dbg k (r_step o w dbg k st).
Proof.
  intros G S. destruct k as [|items|p|p|i|i items|i j|i|i p|i p|i items|i j|i| | | |i| |p|n|n|n i|n s|n s]; cbn [r_step].
  - apply new_table_sound; [exact S|constructor].
  - apply new_table_sound; [exact S|]. apply mt_of.
  - destruct (outcome_cases (builder_from_csv_path w p)) as [(t & E)|N].
    + rewrite E. apply new_table_sound; [exact S|]. unfold builder_from_csv_path, canonicalize in E.
      destruct (w_canonicalize w p) as [q|] eqn:Q; [|discriminate E]. cbn [bind] in E. eapply mt_csv; [exact Q|apply csv_loaded, E].
    + apply fails_sound; [exact S|intros a E; destruct N as [(e & N)|N]; congruence|]. split; [exact I|]. split; [apply nothing_named; reflexivity|].
      split; [|split; [intros i l l' X; inversion X|intros effs X; inversion X]]. intros l X. inversion X as [| |? q ? Q L| |]; subst.
      apply csv_lists_iff in L. unfold builder_from_csv_path, canonicalize in N. rewrite Q in N. cbn [bind] in N. destruct N as [(e & N)|N]; congruence.
  - destruct (outcome_cases (builder_from_yaml_path w p)) as [(t & E)|N].
    + rewrite E. apply new_table_sound; [exact S|]. unfold builder_from_yaml_path, canonicalize in E.
      destruct (w_canonicalize w p) as [q|] eqn:Q; [|discriminate E]. cbn [bind] in E. eapply mt_yaml; [exact Q|apply yaml_loaded, E].
    + apply fails_sound; [exact S|intros a E; destruct N as [(e & N)|N]; congruence|]. split; [exact I|]. split; [apply nothing_named; reflexivity|].
      split; [|split; [intros i l l' X; inversion X|intros effs X; inversion X]]. intros l X. inversion X as [| | |? q ? Q L|]; subst.
      apply yaml_lists_iff in L. unfold builder_from_yaml_path, canonicalize in N. rewrite Q in N. cbn [bind] in N. destruct N as [(e & N)|N]; congruence.
  - apply on_table_sound; [exact S|left; reflexivity|]. intros t E Ev. apply new_table_sound; [exact S|]. apply mt_clone, Ev.
  - apply on_table_sound; [exact S|left; reflexivity|]. intros t E Ev. eapply set_table_sound; [exact S|exact E|]. apply ct_add with (items := items), add_union. reflexivity.
  - apply on_table_sound; [exact S|left; reflexivity|]. intros t E Ev. apply on_table_sound; [exact S|right; left; reflexivity|]. intros t' E' Ev'.
    eapply set_table_sound; [exact S|exact E|]. eapply ct_add_table; [exact Ev'|]. apply add_union. reflexivity.
  - apply on_table_sound; [exact S|left; reflexivity|]. intros t E Ev. eapply set_table_sound; [exact S|exact E|].
    eapply ct_preset; [exact ALL_items_rel|]. apply add_union, ALL_eq.
  - apply on_table_sound; [exact S|left; reflexivity|]. intros t E Ev. destruct (outcome_cases (add_from_csv o w p t)) as [(t' & E')|N].
    + rewrite E'. eapply set_table_sound; [exact S|exact E|]. unfold add_from_csv in E'. apply bind_ok in E' as (tf & L & E').
      injection E' as <-. eapply ct_csv; [apply csv_loaded, L|]. apply add_union. reflexivity.
    + apply fails_sound; [exact S|intros a E'; destruct N as [(e & N)|N]; congruence|]. split; [exact I|].
      split; [eapply table_named_exists; [reflexivity|reflexivity|exact Ev]|].
      split; [intros l X; inversion X|split; [|intros effs X; inversion X]]. intros i' l l' X. inversion X as [| | |? ? ? its ? L U| | |]; subst.
      apply csv_lists_iff in L. unfold add_from_csv in N. rewrite L in N. cbn [bind] in N. destruct N as [(e & N)|N]; congruence.
  - apply on_table_sound; [exact S|left; reflexivity|]. intros t E Ev. destruct (outcome_cases (add_from_yaml o w p t)) as [(t' & E')|N].
    + rewrite E'. eapply set_table_sound; [exact S|exact E|]. unfold add_from_yaml in E'. apply bind_ok in E' as (tf & L & E').
      injection E' as <-. eapply ct_yaml; [apply yaml_loaded, L|]. apply add_union. reflexivity.
    + apply fails_sound; [exact S|intros a E'; destruct N as [(e & N)|N]; congruence|]. split; [exact I|].
      split; [eapply table_named_exists; [reflexivity|reflexivity|exact Ev]|].
      split; [intros l X; inversion X|split; [|intros effs X; inversion X]]. intros i' l l' X. inversion X as [| | | |? ? ? its ? L U| |]; subst.
      apply yaml_lists_iff in L. unfold add_from_yaml in N. rewrite L in N. cbn [bind] in N. destruct N as [(e & N)|N]; congruence.
  - apply on_table_sound; [exact S|left; reflexivity|]. intros t E Ev. eapply set_table_sound; [exact S|exact E|]. apply ct_remove, remove_difference.
  - apply on_table_sound; [exact S|left; reflexivity|]. intros t E Ev. apply on_table_sound; [exact S|right; left; reflexivity|]. intros t' E' Ev'.
    eapply set_table_sound; [exact S|exact E|]. eapply ct_remove_table; [exact Ev'|]. apply remove_difference.
  - apply on_table_sound; [exact S|left; reflexivity|]. intros t E Ev. exists v. split; [|exact S]. apply ra_items, Ev.
  - eapply new_chanoma_sound; [exact S|apply mc_new|constructor].
  - rewrite chanoma_preset_eq. eapply new_chanoma_sound; [exact S|apply mc_preset|]. constructor; [apply realises_preset|constructor].
  - unfold chanoma_neologdn. rewrite neologdn_new_eq. cbn [bind]. eapply new_chanoma_sound; [exact S|apply mc_neologdn|].
    constructor; [apply realises_neo|constructor].
  - apply on_table_sound; [exact S|left; reflexivity|]. intros t E Ev. destruct (table_panics t) as [(c & F)|(F & N)]; rewrite F.
    + apply table_stage in F as [N F]. eapply new_chanoma_sound; [exact S|eapply mc_table; [exact Ev|exact N]|exact F].
    + exists v. split; [|exact S]. eapply ra_empty_string; [|left; reflexivity|exact Ev|exact N].
      eapply table_named_exists; [reflexivity|reflexivity|exact Ev].
  - destruct (outcome_cases (load_rc o w)) as [(c & E)|N].
    + rewrite E. destruct (rc_loaded o w c G E) as (effs & H & P). eapply new_chanoma_sound; [exact S|apply mc_rc, H|exact P].
    + apply fails_sound; [exact S|intros a E; destruct N as [(e & N)|N]; congruence|]. split; [exact I|]. split; [apply nothing_named; reflexivity|].
      split; [intros l X; inversion X|split; [intros i l l' X; inversion X|]]. intros effs X. inversion X; subst.
      destruct (rc_loads o w effs G) as (c & E); [assumption|]. destruct N as [(e & N)|N]; congruence.
  - destruct (outcome_cases (from_config_file o w p)) as [(c & E)|N].
    + rewrite E. destruct (config_stages o w p c E) as (effs & H & P). eapply new_chanoma_sound; [exact S|apply mc_config, H|exact P].
    + apply fails_sound; [exact S|intros a E; destruct N as [(e & N)|N]; congruence|]. split; [exact I|]. split; [apply nothing_named; reflexivity|].
      split; [intros l X; inversion X|split; [intros i l l' X; inversion X|]]. intros effs X. inversion X; subst.
      destruct (stages_config o w p effs) as (c & E); [assumption|]. destruct N as [(e & N)|N]; congruence.
  - apply on_chanoma_sound; [exact S|left; reflexivity|]. intros c effs E Ev P. rewrite use_preset_eq.
    eapply set_chanoma_sound; [exact S|exact E|apply as_preset|apply realises_preset].
  - apply on_chanoma_sound; [exact S|left; reflexivity|]. intros c effs E Ev P. rewrite use_neologdn_eq.
    eapply set_chanoma_sound; [exact S|exact E|apply as_neologdn|apply realises_neo].
  - apply on_chanoma_sound; [exact S|left; reflexivity|]. intros c effs E Ev P. apply on_table_sound; [exact S|left; reflexivity|]. intros t Et Evt.
    rewrite add_table_eq. destruct (table_panics t) as [(x & F)|(F & N)]; rewrite F; cbn [bind].
    + apply table_stage in F as [N F]. inversion F as [|m e ms es R Z]; subst. inversion Z; subst.
      eapply set_chanoma_sound; [exact S|exact E|eapply as_table; [exact Evt|exact N]|exact R].
    + exists v. split; [|exact S]. eapply ra_empty_string; [|right; eexists; reflexivity|exact Evt|exact N].
      split; cbn; intros x [<-|[]]; apply nth_error_Some; congruence.
  - apply on_chanoma_sound; [exact S|left; reflexivity|]. intros c effs E Ev P. destruct (C32_lemma o c s (realises_constr _ _ P)) as (out & R1 & R2).
    assert (Q : in_sequence effs s out) by (apply (result_realises _ _ P); exists o; exact R1).
    destruct dbg; [destruct c as [|m c]|].
    + rewrite R2. inversion P; subst. exists v. split; [|exact S]. apply ra_no_text; [exact Ev|reflexivity].
    + rewrite R2. exists v. split; [|exact S]. eapply ra_text; [exact Ev|intros _ ->; inversion P|exact Q].
    + rewrite R1. exists v. split; [|exact S]. eapply ra_text; [exact Ev|discriminate|exact Q].
  - apply on_chanoma_sound; [exact S|left; reflexivity|]. intros c effs E Ev P. destruct (C31_lemma o c s (realises_constr _ _ P)) as (rs & R & St & _).
    rewrite R. exists v. split; [|exact S]. eapply ra_records; [exact Ev|]. eapply stages_records; eassumption.
Qed.
Lemma run_sound_r prog : forall o st v, r_sane prog -> r_sim st v -> r_allowed_run v prog (r_run o prog st).
Proof.
  induction prog as [|[[w dbg] k] prog IH]; intros o st v G S; cbn [r_run]; [constructor|].
  inversion G as [|x y G1 G2]; subst. destruct (step_sound_r (sub o 0) w dbg k st v G1 S) as (v' & A & S').
  destruct (r_step (sub o 0) w dbg k st) as [st' a]. econstructor; [exact A|]. apply IH; assumption.
Qed.
Lemma one_record m s t : constructible m -> result [m] s t -> exists r, r_text r = t /\ stages [m] s [r].
Proof.
  intros C (o & H). destruct (C31_lemma o [m] s (Forall_cons _ C (Forall_nil _))) as (rs & _ & St & T).
  destruct rs as [|r [|r' rs]]; cbn [stages] in St; try (destruct St; fail); [|destruct St as (_ & _ & _ & [])].
  specialize (T ltac:(discriminate)). rewrite H in T. cbn in T. injection T as T. exists r. split; [exact T|]. exact St.
Qed.
Lemma records_stages c : forall effs s rs, pipe_is c effs -> records_of effs s rs -> exists rs', stages c s rs' /\ map r_text rs' = map r_text rs.
Proof.
  induction c as [|m c IH]; intros effs s rs P H; inversion P as [|? e ? es Hm Hc]; subst; destruct rs as [|r rs]; cbn [records_of] in H; try contradiction.
  - exists []. split; [exact I|reflexivity].
  - destruct H as (R & H). destruct Hm as [K Q]. apply Q in R. destruct (one_record m s (r_text r) K R) as (r0 & T & St).
    destruct (IH es (r_text r) rs Hc H) as (rs' & St' & E). exists (r0 :: rs'). split; [|cbn [map]; congruence].
    cbn [stages] in *. destruct St as (A & B & D & _). rewrite T. rewrite T in B. auto.
Qed.
Lemma step_complete_r w dbg k st v a v' : good_env w -> r_sim st v -> r_allowed v w dbg k a v' ->
  exists o, r_same k a (snd (r_step o w dbg k st)) /\ r_sim (fst (r_step o w dbg k st)) v'.
Proof.
  intros G S H. assert (D : ~ asks k \/ asks k) by (destruct k; cbn [asks]; tauto). destruct D as [D|D].
  - exists no_order. destruct (step_sound_r no_order w dbg k st v G S) as (v2 & A & S2).
    destruct (det _ _ _ _ _ _ _ _ H A) as [-> Q]. split; [apply Q, D|exact S2].
  - assert (U : forall o, (forall c effs, nth_error (r_chanomas st) (hd 0 (chanomas_named k)) = Some c ->
        nth_error (rv_chanomas v) (hd 0 (chanomas_named k)) = Some effs -> pipe_is c effs -> False) ->
        r_same k a (snd (r_step o w dbg k st)) /\ r_sim (fst (r_step o w dbg k st)) v').
    { intros o N. assert (E : nth_error (r_chanomas st) (hd 0 (chanomas_named k)) = None /\ nth_error (rv_chanomas v) (hd 0 (chanomas_named k)) = None).
      { pose proof (sim_chanoma st v (hd 0 (chanomas_named k)) S) as X.
        destruct (nth_error (r_chanomas st) (hd 0 (chanomas_named k))) as [c|], (nth_error (rv_chanomas v) (hd 0 (chanomas_named k))) as [effs|];
          try contradiction; [destruct (N c effs eq_refl eq_refl X)|auto]. }
      destruct E as [E1 E2].
      destruct (step_sound_r o w dbg k st v G S) as (v2 & A & S2). destruct (det _ _ _ _ _ _ _ _ H A) as [-> _]. split; [|exact S2].
      destruct k; cbn [asks] in D; try contradiction; cbn [hd chanomas_named] in E1, E2; cbn [r_step]; unfold on_chanoma; rewrite E1; cbn [snd].
      all: left; inversion H; subst; try congruence; try (exfalso; match goal with
        | X : makes_table _ _ _ _ |- _ => inversion X | X : changes_table _ _ _ _ _ _ |- _ => inversion X
        | X : makes_chanoma _ _ _ _ |- _ => inversion X | X : adds_stage _ _ _ _ |- _ => inversion X
        | X : reads_files _ |- _ => exact X
        | X : _ = RFromTable _ \/ _ |- _ => destruct X as [X|(? & X)]; discriminate X end). }
    destruct (nth_error (r_chanomas st) (hd 0 (chanomas_named k))) as [c|] eqn:E1; [|exists no_order; apply U; intros; congruence].
    destruct (nth_error (rv_chanomas v) (hd 0 (chanomas_named k))) as [effs|] eqn:E2; [|exists no_order; apply U; intros; congruence].
    pose proof (sim_chanoma st v (hd 0 (chanomas_named k)) S) as P. rewrite E1, E2 in P.
    assert (X : ~ ~ objects_exist v k).
    { intros N. apply N. destruct k; cbn [asks] in D; try contradiction; cbn [hd chanomas_named] in *; (split; cbn; intros x []; [subst; apply nth_error_Some; congruence|contradiction]). }
    destruct k as [| | | | | | | | | | | | | | | | | | | | | |n s|n s]; cbn [asks] in D; try contradiction; cbn [hd chanomas_named] in E1, E2; cbn [r_step]; unfold on_chanoma; rewrite E1;
      inversion H; subst; try (exfalso; match goal with
        | X : makes_table _ _ _ _ |- _ => inversion X | X : changes_table _ _ _ _ _ _ |- _ => inversion X
        | X : makes_chanoma _ _ _ _ |- _ => inversion X | X : adds_stage _ _ _ _ |- _ => inversion X
        | X : reads_files _ |- _ => exact X
        | X : _ = RFromTable _ \/ _ |- _ => destruct X as [X|(? & X)]; discriminate X
        | N : ~ objects_exist _ _ |- _ => exact (X N) end); unfold answered; cbn [fst snd].
    + assert (effs0 = effs) by congruence. subst effs0. match goal with Q : in_sequence _ _ _ |- _ => apply (result_realises _ _ P) in Q; destruct Q as (o & Hrun) end.
      exists o. destruct (C32_lemma o c s (realises_constr _ _ P)) as (out' & R1 & R2). rewrite R1 in Hrun. injection Hrun as ->.
      split; [|exact S]. left. destruct dbg; [|rewrite R1; reflexivity]. rewrite R2. destruct c as [|m c]; [|reflexivity].
      inversion P; subst. exfalso. match goal with Z : true = true -> _ |- _ => apply (Z eq_refl); reflexivity end.
    + assert (effs = []) by congruence. subst effs. inversion P; subst. exists no_order. split; [left; reflexivity|exact S].
    + assert (effs0 = effs) by congruence. subst effs0. match goal with Q : records_of _ _ _ |- _ => destruct (records_stages c effs s rs P Q) as (rs' & St & E) end.
      destruct (stages_run c s rs' St) as (o & R). exists o. rewrite R. split; [|exact S]. right. right. exists rs, rs'. auto.
Qed.
Lemma run_complete_r prog : forall st v answers, r_sane prog -> r_sim st v -> r_allowed_run v prog answers ->
  exists o, same_run prog answers (r_run o prog st).
Proof.
  induction prog as [|[[w dbg] k] prog IH]; intros st v answers G S H; inversion H; subst; cbn [r_run same_run].
  - exists no_order. exact I.
  - inversion G as [|x y G1 G2]; subst. match goal with A : r_allowed _ _ _ _ _ _ |- _ => destruct (step_complete_r w dbg k st v a v' G1 S A) as (o1 & Sa & S') end.
    destruct (IH (fst (r_step o1 w dbg k st)) v' answers0 G2 S' ltac:(assumption)) as (o2 & F).
    exists (fun p => match p with 0 :: r => o1 r | _ :: r => o2 r | [] => [] end).
    change (sub (fun p : list nat => match p with 0 :: r => o1 r | S _ :: r => o2 r | [] => [] end) 0) with o1.
    change (sub (fun p : list nat => match p with 0 :: r => o1 r | S _ :: r => o2 r | [] => [] end) 1) with o2.
    destruct (r_step o1 w dbg k st) as [st' b]. split; [exact Sa|exact F].
Qed.
Lemma r_sim_start : r_sim r_start (RView [] []).
Proof. split; [reflexivity|constructor]. Qed.

(** ** Later calls *)
Lemma r_step_order o o' w dbg k st : fst (r_step o w dbg k st) = fst (r_step o' w dbg k st).
Proof.
  destruct k as [|items|p|p|i|i items|i j|i|i p|i p|i items|i j|i| | | |i| |p|n|n|n i|n s|n s]; cbn [r_step];
    unfold on_table, on_chanoma, answered;
    try match goal with |- context [nth_error (r_chanomas st) ?i] => destruct (nth_error (r_chanomas st) i) as [c|]; [|reflexivity] end;
    try match goal with |- context [nth_error (r_tables st) ?i] => destruct (nth_error (r_tables st) i) as [t|]; [|reflexivity] end;
    try match goal with |- context [nth_error (r_tables st) ?i] => destruct (nth_error (r_tables st) i) as [t'|]; [|reflexivity] end;
    try reflexivity.
  - rewrite (table_add_ext o o' t (synth items) (synth items)); reflexivity.
  - rewrite (table_add_ext o o' t (table_corr t') (table_corr t')); reflexivity.
  - unfold builder_preset. rewrite (table_add_ext o o' t ALL ALL); [reflexivity|]. intros it. rewrite !ALL_eq. reflexivity.
  - unfold add_from_csv. destruct (table_from_csv_path w p) as [tf| |]; cbn [bind]; [|reflexivity..].
    rewrite (table_add_ext o o' t (table_corr tf) (table_corr tf)); reflexivity.
  - unfold add_from_yaml. destruct (table_from_yaml_path w p) as [tf| |]; cbn [bind]; [|reflexivity..].
    rewrite (table_add_ext o o' t (table_corr tf) (table_corr tf)); reflexivity.
  - rewrite !chanoma_preset_eq. reflexivity.
  - unfold chanoma_neologdn. rewrite !neologdn_new_eq. reflexivity.
  - rewrite (load_rc_order o o'). reflexivity.
  - change (from_config_file o w p) with (py_config o w false (Some p)). rewrite (py_config_order o o'). reflexivity.
  - rewrite !use_preset_eq. reflexivity.
  - rewrite !use_neologdn_eq. reflexivity.
Qed.
Fixpoint r_final (prog : list (world * bool * r_call)) (st : r_state) : r_state :=
  match prog with [] => st | (w, dbg, k) :: r => r_final r (fst (r_step no_order w dbg k st)) end.
Lemma r_run_app prog : forall o p2 st, exists o', r_run o (prog ++ p2) st = r_run o prog st ++ r_run o' p2 (r_final prog st).
Proof.
  induction prog as [|[[w dbg] k] prog IH]; intros o p2 st; cbn [app r_run r_final]; [exists o; reflexivity|].
  pose proof (r_step_order (sub o 0) no_order w dbg k st) as E. destruct (r_step (sub o 0) w dbg k st) as [st' a]. cbn [fst] in E. subst st'.
  destruct (IH (sub o 1) p2 (fst (r_step no_order w dbg k st))) as (o' & ->). exists o'. reflexivity.
Qed.
Lemma r_run_app_inv prog : forall o p2 st, exists o', r_run o' (prog ++ p2) st = r_run o' prog st ++ r_run o p2 (r_final prog st).
Proof.
  induction prog as [|[[w dbg] k] prog IH]; intros o p2 st; cbn [app r_final]; [exists o; reflexivity|].
  destruct (IH o p2 (fst (r_step no_order w dbg k st))) as (o2 & E).
  exists (fun p => match p with 0 :: r => no_order r | _ :: r => o2 r | [] => [] end). cbn [r_run].
  change (sub (fun p : list nat => match p with 0 :: r => no_order r | S _ :: r => o2 r | [] => [] end) 0) with no_order.
  change (sub (fun p : list nat => match p with 0 :: r => no_order r | S _ :: r => o2 r | [] => [] end) 1) with o2.
  destruct (r_step no_order w dbg k st) as [st' b]. cbn [fst] in E. rewrite E. reflexivity.
Qed.
Lemma r_final_app p1 p2 st : r_final (p1 ++ p2) st = r_final p2 (r_final p1 st).
Proof. revert st; induction p1 as [|[[w dbg] k] p1 IH]; intros st; cbn [app r_final]; [reflexivity|apply IH]. Qed.
Lemma last_answer prog w dbg k a : (exists o, last (r_run o (prog ++ [(w, dbg, k)]) r_start) RDone = a) <->
  exists o, snd (r_step o w dbg k (r_final prog r_start)) = a.
Proof.
  split; intros (o & H).
  - destruct (r_run_app prog o [(w, dbg, k)] r_start) as (o' & E). rewrite E in H. cbn [r_run] in H.
    exists (sub o' 0). destruct (r_step (sub o' 0) w dbg k (r_final prog r_start)) as [st' b]. rewrite last_last in H. exact H.
  - destruct (r_run_app_inv prog (fun p => match p with _ :: r => o r | [] => [] end) [(w, dbg, k)] r_start) as (o' & E).
    exists o'. rewrite E. cbn [r_run].
    change (sub (fun p : list nat => match p with _ :: r => o r | [] => [] end) 0) with o.
    destruct (r_step o w dbg k (r_final prog r_start)) as [st' b]. rewrite last_last. exact H.
Qed.
Lemma update_other {A} (l : list A) i j x : i <> j -> nth_error (update i x l) j = nth_error l j.
Proof. revert i j. induction l as [|y l IH]; intros [|i] [|j] N; cbn [update nth_error]; try reflexivity; [contradiction|]. apply IH. congruence. Qed.
Lemma made_cases {A} st (x : outcome A) keep : (exists a, fst (r_made st x keep) = keep a) \/ fst (r_made st x keep) = st.
Proof. destruct x as [a| |]; cbn [r_made fst]; eauto. Qed.
Lemma step_keeps_table o w dbg k st j t : table_modified k <> Some j -> nth_error (r_tables st) j = Some t ->
  nth_error (r_tables (fst (r_step o w dbg k st))) j = Some t.
Proof.
  intros N E. assert (L : j < length (r_tables st)) by (apply nth_error_Some; congruence).
  destruct k; cbn [r_step table_modified] in *; unfold on_table, on_chanoma, new_table, new_chanoma, set_table, set_chanoma, answered;
    repeat match goal with |- context [nth_error ?l ?i] => lazymatch i with j => fail | _ => destruct (nth_error l i); [|exact E] end end;
    try exact E.
  all: try (destruct (nth_error (r_tables st) j); [|exact E]).
  all: match goal with |- context [r_made ?s ?x ?kp] => destruct (made_cases s x kp) as [(y & ->)| ->] end; try exact E; cbn [r_tables].
  all: try (rewrite nth_error_app1 by exact L; exact E).
  all: rewrite update_other; [exact E|congruence].
Qed.
Lemma step_keeps_chanoma o w dbg k st j c : chanoma_modified k <> Some j -> nth_error (r_chanomas st) j = Some c ->
  nth_error (r_chanomas (fst (r_step o w dbg k st))) j = Some c.
Proof.
  intros N E. assert (L : j < length (r_chanomas st)) by (apply nth_error_Some; congruence).
  destruct k; cbn [r_step chanoma_modified] in *; unfold on_table, on_chanoma, new_table, new_chanoma, set_table, set_chanoma, answered;
    repeat match goal with |- context [nth_error ?l ?i] => lazymatch i with j => fail | _ => destruct (nth_error l i); [|exact E] end end;
    try exact E.
  all: try (destruct (nth_error (r_tables st) j); [|exact E]).
  all: match goal with |- context [r_made ?s ?x ?kp] => destruct (made_cases s x kp) as [(y & ->)| ->] end; try exact E; cbn [r_chanomas].
  all: try (rewrite nth_error_app1 by exact L; exact E).
  all: rewrite update_other; [exact E|congruence].
Qed.
Lemma final_keeps_table prog : forall st j t, Forall (fun x => table_modified (snd x) <> Some j) prog -> nth_error (r_tables st) j = Some t ->
  nth_error (r_tables (r_final prog st)) j = Some t.
Proof.
  induction prog as [|[[w dbg] k] prog IH]; intros st j t F E; cbn [r_final]; [exact E|]. inversion F; subst. apply IH; [assumption|].
  apply step_keeps_table; assumption.
Qed.
Lemma final_keeps_chanoma prog : forall st j t, Forall (fun x => chanoma_modified (snd x) <> Some j) prog -> nth_error (r_chanomas st) j = Some t ->
  nth_error (r_chanomas (r_final prog st)) j = Some t.
Proof.
  induction prog as [|[[w dbg] k] prog IH]; intros st j t F E; cbn [r_final]; [exact E|]. inversion F; subst. apply IH; [assumption|].
  apply step_keeps_chanoma; assumption.
Qed.
