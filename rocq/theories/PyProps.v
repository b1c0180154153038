(** Lemmas for C78. *)
From Verif Require Import Base BaseFacts StrOps Corr Table Charset Converter Neologdn ModifierKind PathModel Yaml File ChanomaModel
  Configuration Python PyProgram Spec TableFacts CharsetFacts CorrFacts CorrProps PropsConverter PropsNeo PropsPipeline
  FileSpec PathSpec ConfigSpec BinSpec PySpec FileProps PathProps YamlProps ConfigProps BinProps.

(** ** What a configuration file does is determined *)
Definition eff_eq (e e' : effect) : Prop := forall s out, e s out <-> e' s out.
Lemma eff_refl e : eff_eq e e.
Proof. intros s out. reflexivity. Qed.
Lemma map_inj {A B} (f : A -> B) : (forall x y, f x = f y -> x = y) -> forall l l', map f l = map f l' -> l = l'.
Proof.
  intros H. induction l as [|x l IH]; intros [|y l'] E; cbn [map] in E; try discriminate E; [reflexivity|].
  injection E as E1 E2. f_equal; [apply H, E1|apply IH, E2].
Qed.
Lemma lit_neq a b : str_eqb a b = false -> YStr a = YStr b -> False.
Proof. intros H E. injection E as ->. rewrite (proj2 (str_eqb_eq b b) eq_refl) in H. discriminate H. Qed.
Definition entry_meaning (kv : yval * yval) (e : effect) : Prop :=
  match kv with (YStr name, v) =>
    (name = lit "character_converter" -> exists items, v = YMap (map (fun it => (YStr (from it), YStr (to it))) items) /\ e = pointwise (last_match items)) /\
    (name = lit "character_eliminator" -> exists ss, v = YSeq (map YStr ss) /\ e = removed (fun c => exists x, In x ss /\ begins x c)) /\
    (name = lit "consecutive_character_reducer" -> exists c r, v = YStr (c :: r) /\ e = collapsed c) /\
    (name = lit "ligature_translator" -> exists l, v = YMap (map (fun kv => (YStr (fst kv), YStr (snd kv))) l) /\
       e = fun s out => exists m, last_bindings l m /\ applied_in_turn m s out) /\
    (name = lit "dotted_space_eliminator" -> e = undotted None) /\ (name = lit "trim" -> e = trimmed) /\ (name = lit "neologdn" -> e = neologdn_result) /\
    In name modifier_names
  | _ => False end.
Lemma entry_has_meaning kv e : entry_effect kv e -> entry_meaning kv e.
Proof.
  intros H. inversion H; subst; cbn [entry_meaning]; repeat match goal with |- _ /\ _ => split end;
    try (intros X; exfalso; vm_compute in X; discriminate X); try (cbn [In modifier_names]; auto 10; fail); intros _; eauto.
Qed.
Lemma entry_effect_unique kv e e' : entry_effect kv e -> entry_effect kv e' -> e = e'.
Proof.
  intros H H'. apply entry_has_meaning in H, H'. destruct kv as [k v]. destruct k as [| | |name|l|l]; cbn [entry_meaning] in *; try contradiction.
  destruct H as (A1 & A2 & A3 & A4 & A5 & A6 & A7 & N), H' as (B1 & B2 & B3 & B4 & B5 & B6 & B7 & _).
  unfold modifier_names in N. cbn [In] in N. destruct N as [N|[N|[N|[N|[N|[N|[N|[]]]]]]]]; symmetry in N.
  - destruct (A1 N) as (i & E1 & ->), (B1 N) as (i' & E2 & ->). rewrite E1 in E2. injection E2 as E2.
    apply map_inj in E2; [subst; reflexivity|]. intros [f t] [f' t'] E. cbn in E. congruence.
  - destruct (A2 N) as (i & E1 & ->), (B2 N) as (i' & E2 & ->). rewrite E1 in E2. injection E2 as E2.
    apply map_inj in E2; [subst; reflexivity|]. intros x y E. congruence.
  - destruct (A3 N) as (c & r & E1 & ->), (B3 N) as (c' & r' & E2 & ->). rewrite E1 in E2. injection E2 as -> _. reflexivity.
  - destruct (A4 N) as (i & E1 & ->), (B4 N) as (i' & E2 & ->). rewrite E1 in E2. injection E2 as E2.
    apply map_inj in E2; [subst; reflexivity|]. intros [f t] [f' t'] E. cbn in E. congruence.
  - rewrite (A5 N), (B5 N). reflexivity.
  - rewrite (A6 N), (B6 N). reflexivity.
  - rewrite (A7 N), (B7 N). reflexivity.
Qed.
Lemma entries_unique l effs effs' : Forall2 entry_effect l effs -> Forall2 entry_effect l effs' -> effs = effs'.
Proof.
  intros H. revert effs'. induction H as [|kv e l effs He _ IH]; intros effs' H'; inversion H'; subst; [reflexivity|].
  f_equal; [eapply entry_effect_unique; eassumption|apply IH; assumption].
Qed.
Lemma modifiers_unique data effs effs' : modifiers_described data effs -> modifiers_described data effs' -> effs = effs'.
Proof.
  intros [[N ->]|(l & K & F)] [[N' ->]|(l' & K' & F')]; [reflexivity|destruct (N _ K')|destruct (N' _ K)|].
  apply yget_iff in K, K'. rewrite K in K'. injection K' as <-. eapply entries_unique; eassumption.
Qed.
Lemma rows_unique rows items items' : rows_items rows items -> rows_items rows items' -> items = items'.
Proof.
  intros H H'. assert (E : csv_items (map CsvFields rows) = Ok items) by (apply csv_items_iff; eauto).
  assert (E' : csv_items (map CsvFields rows) = Ok items') by (apply csv_items_iff; eauto). congruence.
Qed.
Lemma described_unique data items items' : items_described data items -> items_described data items' -> items = items'.
Proof. intros H H'. apply yaml_items_iff in H, H'. congruence. Qed.
Lemma fields_inj (l l' : list (list str)) : map CsvFields l = map CsvFields l' -> l = l'.
Proof. apply map_inj. congruence. Qed.
Lemma csv_not_yaml p : has_extension p (lit "csv") -> is_yaml p -> False.
Proof. intros H H'. apply ext_csv_iff in H. apply ext_yaml_iff in H'. congruence. Qed.
Lemma file_effect_unique w p e e' : file_effect w p e -> file_effect w p e' -> e = e'.
Proof.
  intros H H'. destruct H as [recs rows items X A B C D _|data items effs X A B _ C];
    destruct H' as [recs' rows' items' X' A' B' C' D' _|data' items' effs' X' A' B' _ C'];
    try (exfalso; eauto using csv_not_yaml; fail).
  - rewrite A in A'. injection A' as <-. rewrite C in C'. apply fields_inj in C'. subst rows'. rewrite (rows_unique _ _ _ D D'). reflexivity.
  - rewrite A in A'. injection A' as <-. rewrite (described_unique _ _ _ B B'), (modifiers_unique _ _ _ C C'). reflexivity.
Qed.
Lemma rc_effect_unique w e e' : rc_effect w e -> rc_effect w e' -> e = e'.
Proof.
  intros [(s & E & _ & _ & H)|(U & effs & F & ->)] [(s' & E' & _ & _ & H')|(U' & effs' & F' & ->)].
  - rewrite E in E'. injection E' as <-. eapply file_effect_unique; eassumption.
  - destruct (U' _ E).
  - destruct (U _ E').
  - f_equal. clear U U'. revert effs' F'. induction F as [|p e l effs He _ IH]; intros effs' F'; inversion F'; subst; [reflexivity|].
    f_equal; [eapply file_effect_unique; eassumption|apply IH; assumption].
Qed.
Lemma config_effect_unique w rc file e e' : config_effect w rc file e -> config_effect w rc file e' -> e = e'.
Proof.
  unfold config_effect. destruct file; [apply file_effect_unique|]. destruct rc; [apply rc_effect_unique|]. congruence.
Qed.

(** ** The configuration of a constructor call *)
Lemma env_cases w : (exists s, w_env w = EnvUnicode s) \/ chanomarc_unset w.
Proof. unfold chanomarc_unset. destruct (w_env w) as [|p|s] eqn:E; [right; discriminate..|left; eauto]. Qed.
Lemma rc_ok o w c : good_env w -> load_rc o w = Ok c ->
  exists e, rc_effect w e /\ Forall constructible c /\ forall s out, result c s out <-> e s out.
Proof.
  intros G H. destruct (env_cases w) as [(s & E)|U].
  - destruct (C45_lemma o w s E (G s E)) as (A & B & C & D). destruct (w_is_file w s) eqn:F.
    2: { rewrite (A eq_refl) in H. discriminate H. }
    assert (X : has_extension s (lit "csv") \/ has_extension s (lit "yaml")).
    { unfold load_rc, configuration_load, file_paths, file_path_from_env in H. rewrite E in H.
      apply bind_ok in H as (ps & Hp & _). unfold valid_file_path in Hp. rewrite F in Hp. cbn [negb] in Hp.
      apply bind_ok in Hp as (x & Hx & Hp). destruct (extension s) as [x'|] eqn:Ex; [|discriminate Hx].
      cbn [unwrap] in Hx. injection Hx as <-. apply bind_ok in Hp as (y & Hy & Hp).
      assert (Ee : has_extension s x') by (apply extension_iff; exact Ex).
      unfold to_str in Hy. destruct (forallb (fun c : N => (c <? 1114112)%N) x'); [|discriminate Hy]. cbn [unwrap] in Hy. injection Hy as <-.
      destruct (str_eqb_spec (lit "csv") x') as [<-|N1]; [left; exact Ee|].
      destruct (str_eqb_spec (lit "yaml") x') as [<-|N2]; [right; exact Ee|].
      exfalso. destruct (str_eqb (lit "csv") x') eqn:Q1; [apply N1, str_eqb_eq, Q1|].
      destruct (str_eqb (lit "yaml") x') eqn:Q2; [apply N2, str_eqb_eq, Q2|].
      cbn [all_extensions forallb ext_to_string] in Hp. rewrite Q1, Q2 in Hp. discriminate Hp. }
    rewrite (B eq_refl X) in H. destruct (C44_ok o w s c H) as (K & e & He & R). exists e. split; [|auto].
    left. exists s. auto.
  - apply (C46_ok o w c U) in H as (cs & F & ->). destruct (C46_effects_gen o w _ cs F) as (K & effs & Fe & R).
    exists (in_sequence effs). split; [|auto]. right. split; [exact U|]. exists effs. auto.
Qed.
Lemma rc_if o w e : good_env w -> rc_effect w e -> exists c, load_rc o w = Ok c.
Proof.
  intros G [(s & E & F & X & H)|(U & effs & F & ->)].
  - destruct (C45_lemma o w s E (G s E)) as (_ & B & _). rewrite (B F X). eapply C44_if, H.
  - assert (Q : exists cs, Forall2 (fun p c' => from_config_file o w p = Ok c') (filter (w_is_file w) (candidates (w_home w) (w_cwd w))) cs).
    { induction F as [|p e l effs He _ (cs & IH)]; [exists []; constructor|]. destruct (C44_if o w p e He) as (c & Hc).
      exists (c :: cs). constructor; assumption. }
    destruct Q as (cs & Q). exists (concat cs). apply (C46_ok o w _ U). exists cs. auto.
Qed.
Lemma cfg_ok o w rc file c : good_env w -> py_config o w rc file = Ok c ->
  exists e, config_effect w rc file e /\ Forall constructible c /\ forall s out, result c s out <-> e s out.
Proof.
  intros G. unfold py_config, config_effect. destruct file as [p|].
  - intros H. destruct (C44_ok o w p c H) as (K & e & He & R). exists e. auto.
  - destruct rc; [apply rc_ok, G|]. intros H. injection H as <-. exists identity. split; [reflexivity|]. split; [constructor|apply result_nil].
Qed.
Lemma cfg_if o w rc file e : good_env w -> config_effect w rc file e -> exists c, py_config o w rc file = Ok c.
Proof.
  intros G. unfold py_config, config_effect. destruct file as [p|]; [apply C44_if|].
  destruct rc; [apply rc_if, G|]. intros _. eexists. reflexivity.
Qed.

(** ** Tables *)
Definition table_is (t : table) (P : item -> Prop) : Prop := ordered item_lt (table_items t) /\ forall it, In it (table_items t) <-> P it.
Lemma csv_has_iff w p P : csv_has w p P <-> exists t, table_from_csv_path w p = Ok t /\ forall it, P it <-> In it (table_items t).
Proof.
  split.
  - intros (recs & rows & items & A & B & C & D & E). exists (Table items (OriginFile p)). split; [|exact E].
    apply C39_iff. exists recs, rows. auto.
  - intros (t & H & E). apply C39_iff in H as (recs & rows & A & B & C & D & _). exists recs, rows, (table_items t). auto.
Qed.
Lemma yaml_has_iff w p P : yaml_has w p P <-> exists t, table_from_yaml_path w p = Ok t /\ forall it, P it <-> In it (table_items t).
Proof.
  split.
  - intros (data & items & A & B & E). exists (Table items (OriginFile p)). split; [|exact E]. apply C42_iff. exists data. auto.
  - intros (t & H & E). apply C42_iff in H as (data & A & B & _). exists data, (table_items t). auto.
Qed.
Lemma tbl_ok o w pre csv yaml t : py_table_new o w pre csv yaml = Ok t -> exists P, table_made w pre csv yaml P /\ table_is t P.
Proof.
  intros H. destruct (py_table_ok o w pre csv yaml t H) as (tc & ty & Hc & Hy & S & I).
  exists (fun it => In it (table_items t)). split; [|split; [exact S|reflexivity]].
  exists (fun it => csv <> None /\ In it (table_items tc)), (fun it => yaml <> None /\ In it (table_items ty)).
  split; [|split; [|exact I]].
  - destruct csv as [p|]; cbn [given]; [|intros b [N _]; apply N; reflexivity]. apply csv_has_iff. exists tc. split; [apply Hc; reflexivity|].
    intros it. split; [intros [_ X]; exact X|intros X; split; [discriminate|exact X]].
  - destruct yaml as [p|]; cbn [given]; [|intros b [N _]; apply N; reflexivity]. apply yaml_has_iff. exists ty. split; [apply Hy; reflexivity|].
    intros it. split; [intros [_ X]; exact X|intros X; split; [discriminate|exact X]].
Qed.
Lemma tbl_if o w pre csv yaml P : table_made w pre csv yaml P -> exists t, py_table_new o w pre csv yaml = Ok t /\ table_is t P.
Proof.
  intros (C & Y & HC & HY & HP). destruct (py_table_fail o w pre csv yaml) as [_ F].
  assert (F1 : forall p, csv = Some p -> exists tc, table_from_csv_path w p = Ok tc).
  { intros p ->. cbn [given] in HC. apply csv_has_iff in HC as (t & E & _). eauto. }
  assert (F2 : forall p, yaml = Some p -> exists ty, table_from_yaml_path w p = Ok ty).
  { intros p ->. cbn [given] in HY. apply yaml_has_iff in HY as (t & E & _). eauto. }
  destruct (proj2 (F F1) F2) as (t & E). exists t. split; [exact E|].
  destruct (py_table_ok o w pre csv yaml t E) as (tc & ty & Hc & Hy & S & I). split; [exact S|].
  assert (QC : forall it, C it <-> csv <> None /\ In it (table_items tc)).
  { intros it. destruct csv as [p|]; cbn [given] in HC.
    - apply csv_has_iff in HC as (t' & E' & X). rewrite (Hc p eq_refl) in E'. injection E' as <-. rewrite X.
      split; [intros Z; split; [discriminate|exact Z]|intros [_ Z]; exact Z].
    - split; [intros Z; destruct (HC it Z)|intros [N _]; destruct (N eq_refl)]. }
  assert (QY : forall it, Y it <-> yaml <> None /\ In it (table_items ty)).
  { intros it. destruct yaml as [p|]; cbn [given] in HY.
    - apply yaml_has_iff in HY as (t' & E' & X). rewrite (Hy p eq_refl) in E'. injection E' as <-. rewrite X.
      split; [intros Z; split; [discriminate|exact Z]|intros [_ Z]; exact Z].
    - split; [intros Z; destruct (HY it Z)|intros [N _]; destruct (N eq_refl)]. }
  intros it. rewrite I, HP, QC, QY. reflexivity.
Qed.

(** ** Constructing a [Chanoma] *)
Definition chanoma_is (c : chanoma) (e : effect) : Prop := Forall constructible c /\ forall s out, result c s out <-> e s out.
Definition option_is (t : option table) (P : option (item -> Prop)) : Prop :=
  match t, P with Some t, Some P => table_is t P | None, None => True | _, _ => False end.
Lemma table_part_iff t P : option_is t P -> eff_eq (table_effect t) (table_part P).
Proof.
  destruct t as [t|], P as [P|]; cbn [option_is]; try contradiction; [|intros _; apply eff_refl].
  intros [S I] s out. cbn [table_effect table_part]. split; apply pointwise_iff; intros c d;
    [|symmetry]; apply last_is_greatest; assumption.
Qed.
Lemma option_empty t P : option_is t P -> (forall tb, t = Some tb -> no_empty_string (table_items tb)) <-> (forall Q, P = Some Q -> no_empty_item Q).
Proof.
  destruct t as [t|], P as [P|]; cbn [option_is]; try contradiction.
  - intros [_ I]. unfold no_empty_string, no_empty_item. split.
    + intros H Q E it Hi. injection E as <-. specialize (H t eq_refl). rewrite Forall_forall in H. apply H, I, Hi.
    + intros H tb E. injection E as <-. apply Forall_forall. intros it Hi. apply (H P eq_refl), I, Hi.
  - intros _. split; discriminate.
Qed.
Lemma made_meaning w P neo pre rc file cfg c ms t : config_effect w rc file cfg -> (forall s out, result c s out <-> cfg s out) ->
  (forall s out, result ms s out <-> table_effect t s out) -> option_is t P ->
  forall s out, result ((c ++ ms) ++ asked pre (MConv PRESET) ++ asked neo (MNeo NEO)) s out <->
    exists a b d, cfg s a /\ table_part P a b /\ if_asked pre (pointwise preset_rel) b d /\ if_asked neo neologdn_result d out.
Proof.
  intros _ Hc Hm Ht s out. rewrite <- app_assoc, result_app. split.
  - intros (a & Ha & Hb). apply result_app in Hb as (b & Hb & Hd). apply result_app in Hd as (d & Hd & Hn). exists a, b, d.
    split; [apply Hc, Ha|]. split; [apply (table_part_iff t P Ht), Hm, Hb|].
    split; [apply (result_asked _ _ _ realises_preset), Hd|apply (result_asked _ _ _ realises_neo), Hn].
  - intros (a & b & d & Ha & Hb & Hd & Hn). exists a. split; [apply Hc, Ha|]. apply result_app. exists b.
    split; [apply Hm, (table_part_iff t P Ht), Hb|].
    apply result_app. exists d. split; [apply (result_asked _ _ _ realises_preset), Hd|apply (result_asked _ _ _ realises_neo), Hn].
Qed.
Lemma chn_ok o w t P neo pre rc file c : good_env w -> option_is t P -> py_chanoma_new o w t neo pre rc file = Ok c ->
  exists e, chanoma_made w P neo pre rc file e /\ chanoma_is c e.
Proof.
  intros G Ht H. rewrite py_eq in H. apply bind_ok in H as (c0 & H1 & H). apply bind_ok in H as (c1 & H2 & H). apply Ok_inj in H. subst c.
  destruct (cfg_ok o w rc file c0 G H1) as (cfg & Hcfg & K & R). destruct (add_opt_ok t c0 c1 H2) as (ms & -> & Km & Rm).
  eexists. split; [split|split].
  - apply (option_empty t P Ht). destruct (add_opt_cases t c0) as [(c' & _ & N)|(E & _)]; [exact N|congruence].
  - exists cfg. split; [exact Hcfg|]. intros s out. apply iff_refl.
  - apply Forall_app. split; [apply Forall_app; split; assumption|]. apply Forall_app.
    split; [apply (asked_constructible _ _ _ realises_preset)|apply (asked_constructible _ _ _ realises_neo)].
  - exact (made_meaning w P neo pre rc file cfg c0 ms t Hcfg R Rm Ht).
Qed.
Lemma chn_if o w t P neo pre rc file e : good_env w -> option_is t P -> chanoma_made w P neo pre rc file e ->
  exists c, py_chanoma_new o w t neo pre rc file = Ok c /\ chanoma_is c e.
Proof.
  intros G Ht (N & cfg & Hcfg & He). destruct (cfg_if o w rc file cfg G Hcfg) as (c0 & H1).
  pose proof (proj2 (option_empty t P Ht) N) as N0. clear N. rename N0 into N.
  destruct (add_opt_cases t c0) as [(c1 & H2 & _)|(_ & tb & Et & X)]; [|destruct (X (N tb Et))].
  assert (E : py_chanoma_new o w t neo pre rc file = Ok (c1 ++ asked pre (MConv PRESET) ++ asked neo (MNeo NEO))).
  { rewrite py_eq, H1. cbn [bind]. rewrite H2. reflexivity. }
  eexists. split; [exact E|]. destruct (chn_ok o w t P neo pre rc file _ G Ht E) as (e' & (_ & cfg' & Hcfg' & He') & K & R).
  rewrite (config_effect_unique _ _ _ _ _ Hcfg' Hcfg) in He'. split; [exact K|]. intros s out. rewrite R, He', He. reflexivity.
Qed.

(** ** Programs *)
Definition sim (st : py_state) (v : view) : Prop :=
  Forall2 table_is (py_tables st) (v_tables v) /\ Forall2 chanoma_is (py_chanomas st) (v_chanomas v).
Lemma F2_nth {A B} (R : A -> B -> Prop) l l' i : Forall2 R l l' ->
  match nth_error l i, nth_error l' i with Some x, Some y => R x y | None, None => True | _, _ => False end.
Proof.
  intros H. revert i. induction H as [|x y l l' Hxy _ IH]; intros [|i]; cbn [nth_error]; try exact I; [exact Hxy|apply IH].
Qed.
Lemma F2_len {A B} (R : A -> B -> Prop) l l' : Forall2 R l l' -> length l = length l'.
Proof. induction 1; cbn [length]; congruence. Qed.
Lemma F2_snoc {A B} (R : A -> B -> Prop) l l' x y : Forall2 R l l' -> R x y -> Forall2 R (l ++ [x]) (l' ++ [y]).
Proof. intros H Hx. apply Forall2_app; [exact H|constructor; [exact Hx|constructor]]. Qed.
Lemma update_app {A} (l1 : list A) x y l2 : update (length l1) y (l1 ++ x :: l2) = l1 ++ y :: l2.
Proof. induction l1 as [|z l1 IH]; cbn [length app update]; [reflexivity|]. rewrite IH. reflexivity. Qed.
Lemma nth_split_at {A} (l : list A) i x : nth_error l i = Some x -> exists l1 l2, l = l1 ++ x :: l2 /\ length l1 = i.
Proof. apply nth_error_split. Qed.
Lemma F2_update {A B} (R : A -> B -> Prop) l l' i x y : Forall2 R l l' -> R x y -> Forall2 R (update i x l) (update i y l').
Proof.
  intros H Hx. revert i. induction H as [|a b l l' Hab H IH]; intros [|i]; cbn [update]; constructor; auto.
Qed.
Lemma table_add_is o items t P : table_is t P -> table_is (py_table_add o items t) (fun it => P it \/ In it items).
Proof.
  intros [_ I]. split; [apply table_add_strict|]. intros it. unfold py_table_add. rewrite table_add_In, I. reflexivity.
Qed.
Lemma normalize_is o c e s : chanoma_is c e -> exists out, py_normalize o c s = Ok out /\ e s out.
Proof.
  intros [K R]. destruct (C32_lemma o c s K) as (out & E & _). exists out. split; [exact E|]. apply R. exists o. exact E.
Qed.
Lemma outcome_cases {A} (x : outcome A) : (exists a, x = Ok a) \/ (exists e, x = Err e) \/ x = Panic.
Proof. destruct x; eauto. Qed.
Lemma nth_len {A} (l : list A) i : nth_error l i = None -> length l <= i.
Proof. apply nth_error_None. Qed.
Definition table_named (v : view) (t : option nat) (P : option (item -> Prop)) : Prop :=
  match t with Some i => exists Q, nth_error (v_tables v) i = Some Q /\ P = Some Q | None => P = None end.
Lemma made_sound o w st v t tb P neo pre rc file : good_env w -> sim st v -> table_named v t P -> option_is tb P ->
  exists v', allowed v w (PyNewChanoma t neo pre rc file)
    (snd (py_made st (py_chanoma_new o w tb neo pre rc file) (fun c => PyState (py_tables st) (py_chanomas st ++ [c])))) v' /\
    sim (fst (py_made st (py_chanoma_new o w tb neo pre rc file) (fun c => PyState (py_tables st) (py_chanomas st ++ [c])))) v'.
Proof.
  intros G [S1 S2] Hn Ht. destruct (outcome_cases (py_chanoma_new o w tb neo pre rc file)) as [(c & E)|[(x & E)|E]];
    rewrite E; cbn [py_made fst snd].
  - destruct (chn_ok o w tb P neo pre rc file c G Ht E) as (e & He & Hc). eexists. split; [eapply al_chanoma; eassumption|].
    split; [exact S1|apply F2_snoc; assumption].
  - exists v. split; [|split; assumption]. eapply al_chanoma_fails; [exact Hn| |left; eauto].
    intros e He. destruct (chn_if o w tb P neo pre rc file e G Ht He) as (c & E' & _). congruence.
  - exists v. split; [|split; assumption]. eapply al_chanoma_fails; [exact Hn| |right; reflexivity].
    intros e He. destruct (chn_if o w tb P neo pre rc file e G Ht He) as (c & E' & _). congruence.
Qed.
Lemma step_sound o w k st v : good_env w -> sim st v ->
  exists v', allowed v w k (snd (py_step o w k st)) v' /\ sim (fst (py_step o w k st)) v'.
Proof.
  intros G S. pose proof S as [S1 S2]. destruct k as [pre csv yaml|i obj|t neo pre rc file|i s]; cbn [py_step].
  - destruct (outcome_cases (py_table_new o w pre csv yaml)) as [(t & E)|[(x & E)|E]]; rewrite E; cbn [py_made fst snd].
    + destruct (tbl_ok o w pre csv yaml t E) as (P & HP & Ht). eexists. split; [apply al_table, HP|].
      split; [apply F2_snoc; assumption|exact S2].
    + exists v. split; [|exact S]. apply al_table_fails; [|left; eauto]. intros P HP.
      destruct (tbl_if o w pre csv yaml P HP) as (t & E' & _). congruence.
    + exists v. split; [|exact S]. apply al_table_fails; [|right; reflexivity]. intros P HP.
      destruct (tbl_if o w pre csv yaml P HP) as (t & E' & _). congruence.
  - pose proof (F2_nth _ _ _ i S1) as Hi. destruct (nth_error (py_tables st) i) as [t|] eqn:E1.
    + destruct (nth_error (v_tables v) i) as [P|] eqn:E2; [|contradiction]. destruct obj as [items|]; cbn [fst snd].
      * destruct (nth_split_at _ _ _ E2) as (l1 & l2 & Ev & <-). eexists. split; [eapply al_add, Ev|]. split; [|exact S2].
        cbn [py_tables v_tables]. rewrite <- (update_app l1 P (fun it => P it \/ In it items) l2), <- Ev.
        apply F2_update; [exact S1|]. apply table_add_is, Hi.
      * exists v. split; [apply al_add_wrong_type|exact S].
    + exists v. split; [|exact S]. cbn [snd]. apply al_add_unknown. rewrite <- (F2_len _ _ _ S1). apply nth_len, E1.
  - destruct t as [i|].
    + pose proof (F2_nth _ _ _ i S1) as Hi. destruct (nth_error (py_tables st) i) as [tb|] eqn:E1.
      * destruct (nth_error (v_tables v) i) as [P|] eqn:E2; [|contradiction].
        apply (made_sound o w st v (Some i) (Some tb) (Some P)); try assumption. exists P. auto.
      * exists v. split; [|exact S]. apply al_chanoma_unknown. rewrite <- (F2_len _ _ _ S1). apply nth_len, E1.
    + apply (made_sound o w st v None None None); try assumption; [reflexivity|exact I].
  - pose proof (F2_nth _ _ _ i S2) as Hi. destruct (nth_error (py_chanomas st) i) as [c|] eqn:E1.
    + destruct (nth_error (v_chanomas v) i) as [e|] eqn:E2; [|contradiction].
      destruct (normalize_is o c e s Hi) as (out & E & He). rewrite E. exists v. split; [|exact S]. eapply al_text; eassumption.
    + exists v. split; [|exact S]. apply al_text_unknown. rewrite <- (F2_len _ _ _ S2). apply nth_len, E1.
Qed.
Lemma run_sound prog : forall o st v, sane prog -> sim st v -> allowed_run v prog (py_run o prog st).
Proof.
  induction prog as [|[w k] prog IH]; intros o st v G S; cbn [py_run]; [constructor|].
  inversion G as [|x y G1 G2]; subst. destruct (step_sound (sub o 0) w k st v G1 S) as (v' & A & S').
  destruct (py_step (sub o 0) w k st) as [st' a]. econstructor; [exact A|]. apply IH; assumption.
Qed.

Lemma failed_refl a : same_answer a a.
Proof. left. reflexivity. Qed.
Lemma made_fails {A} st (x : outcome A) keep : (forall a, x <> Ok a) -> fst (py_made st x keep) = st /\ failed (snd (py_made st x keep)).
Proof.
  intros N. destruct x as [a|e|]; cbn [py_made fst snd]; [destruct (N a eq_refl)|split; [reflexivity|left; eauto]|split; [reflexivity|right; reflexivity]].
Qed.
Lemma named_table st v t P : sim st v -> table_named v t P -> exists tb, option_is tb P /\
  forall o w neo pre rc file, py_step o w (PyNewChanoma t neo pre rc file) st =
    py_made st (py_chanoma_new o w tb neo pre rc file) (fun c => PyState (py_tables st) (py_chanomas st ++ [c])).
Proof.
  intros [S1 _] H. destruct t as [i|]; cbn [table_named] in H.
  - destruct H as (Q & E & ->). pose proof (F2_nth _ _ _ i S1) as Hi. rewrite E in Hi.
    destruct (nth_error (py_tables st) i) as [tb|] eqn:E1; [|contradiction]. exists (Some tb). split; [exact Hi|].
    intros. cbn [py_step]. rewrite E1. reflexivity.
  - subst P. exists None. split; [exact I|]. reflexivity.
Qed.
Lemma nth_beyond {A} (l : list A) i : length l <= i -> nth_error l i = None.
Proof. apply nth_error_None. Qed.
Lemma step_complete w k st v a v' : good_env w -> sim st v -> allowed v w k a v' ->
  exists o, same_answer a (snd (py_step o w k st)) /\ sim (fst (py_step o w k st)) v'.
Proof.
  intros G S H. pose proof S as [S1 S2]. destruct H as [pre csv yaml P HP|pre csv yaml a N F|l1 P l2 items Ev|i|i obj L
    |P t neo pre rc file e Hn He|P t neo pre rc file a Hn N F|i neo pre rc file L|i e s out E He|i s L].
  - exists no_order. destruct (tbl_if no_order w pre csv yaml P HP) as (t & E & Ht). cbn [py_step]. rewrite E. cbn [py_made fst snd].
    split; [apply failed_refl|]. split; [apply F2_snoc; assumption|exact S2].
  - exists no_order. cbn [py_step]. destruct (made_fails st (py_table_new no_order w pre csv yaml) (fun t => PyState (py_tables st ++ [t]) (py_chanomas st))) as [E1 E2].
    { intros t E. destruct (tbl_ok no_order w pre csv yaml t E) as (P & HP & _). exact (N P HP). }
    rewrite E1. split; [right; split; assumption|exact S].
  - exists no_order. cbn [py_step]. pose proof (F2_nth _ _ _ (length l1) S1) as Hi. rewrite Ev in Hi.
    rewrite nth_error_app2, Nat.sub_diag in Hi by apply Nat.le_refl. cbn [nth_error] in Hi.
    destruct (nth_error (py_tables st) (length l1)) as [t|] eqn:E1; [|contradiction]. cbn [fst snd].
    split; [apply failed_refl|]. split; [|exact S2]. cbn [py_tables v_tables].
    rewrite <- (update_app l1 P (fun it => P it \/ In it items) l2), <- Ev. apply F2_update; [exact S1|]. apply table_add_is, Hi.
  - exists no_order. cbn [py_step]. destruct (nth_error (py_tables st) i); (split; [apply failed_refl|exact S]).
  - exists no_order. cbn [py_step]. rewrite nth_beyond; [split; [apply failed_refl|exact S]|]. rewrite (F2_len _ _ _ S1). exact L.
  - exists no_order. destruct (named_table st v t P S Hn) as (tb & Ht & Q). rewrite Q.
    destruct (chn_if no_order w tb P neo pre rc file e G Ht He) as (c & E & Hc). rewrite E. cbn [py_made fst snd].
    split; [apply failed_refl|]. split; [exact S1|apply F2_snoc; assumption].
  - exists no_order. destruct (named_table st v t P S Hn) as (tb & Ht & Q). rewrite Q.
    destruct (made_fails st (py_chanoma_new no_order w tb neo pre rc file) (fun c => PyState (py_tables st) (py_chanomas st ++ [c]))) as [E1 E2].
    { intros c E. destruct (chn_ok no_order w tb P neo pre rc file c G Ht E) as (e & He & _). exact (N e He). }
    rewrite E1. split; [right; split; assumption|exact S].
  - exists no_order. cbn [py_step]. rewrite nth_beyond; [split; [apply failed_refl|exact S]|]. rewrite (F2_len _ _ _ S1). exact L.
  - pose proof (F2_nth _ _ _ i S2) as Hi. rewrite E in Hi. cbn [py_step]. destruct (nth_error (py_chanomas st) i) as [c|]; [|contradiction].
    destruct Hi as [K R]. apply R in He as (o & He). exists o. change (normalize false o c s) with (py_normalize o c s) in He. rewrite He.
    split; [apply failed_refl|exact S].
  - exists no_order. cbn [py_step]. rewrite nth_beyond; [split; [apply failed_refl|exact S]|]. rewrite (F2_len _ _ _ S2). exact L.
Qed.
Lemma run_complete prog : forall st v answers, sane prog -> sim st v -> allowed_run v prog answers ->
  exists o, Forall2 same_answer answers (py_run o prog st).
Proof.
  induction prog as [|[w k] prog IH]; intros st v answers G S H; inversion H; subst; cbn [py_run].
  - exists no_order. constructor.
  - inversion G as [|x y G1 G2]; subst. match goal with A : allowed _ _ _ _ _ |- _ => destruct (step_complete w k st v a v' G1 S A) as (o1 & Sa & S') end.
    destruct (IH (fst (py_step o1 w k st)) v' answers0 G2 S' ltac:(assumption)) as (o2 & F).
    exists (fun p => match p with 0 :: r => o1 r | _ :: r => o2 r | [] => [] end).
    change (sub (fun p : list nat => match p with 0 :: r => o1 r | S _ :: r => o2 r | [] => [] end) 0) with o1.
    change (sub (fun p : list nat => match p with 0 :: r => o1 r | S _ :: r => o2 r | [] => [] end) 1) with o2.
    destruct (py_step o1 w k st) as [st' b]. constructor; [exact Sa|exact F].
Qed.
Lemma sim_start : sim py_start (View [] []).
Proof. split; constructor. Qed.

(** ** Later calls *)
Lemma py_table_order o o' w pre csv yaml : py_table_new o w pre csv yaml = py_table_new o' w pre csv yaml.
Proof.
  unfold py_table_new, add_from_csv, add_from_yaml.
  assert (E : (if pre then builder_preset (sub o 0) table_new else table_new) = (if pre then builder_preset (sub o' 0) table_new else table_new)).
  { destruct pre; [|reflexivity]. unfold builder_preset. apply table_add_ext. intros it. rewrite !ALL_eq. reflexivity. }
  rewrite E. set (t0 := if pre then builder_preset (sub o' 0) table_new else table_new).
  destruct csv as [p|].
  - destruct (table_from_csv_path w p) as [tc| |]; cbn [bind]; [|reflexivity..].
    rewrite (table_add_ext (sub o 1) (sub o' 1) t0 (table_corr tc) (table_corr tc)); [|reflexivity].
    destruct yaml as [q|]; [|reflexivity]. destruct (table_from_yaml_path w q) as [ty| |]; cbn [bind]; [|reflexivity..].
    rewrite (table_add_ext (sub o 2) (sub o' 2) _ (table_corr ty) (table_corr ty)); reflexivity.
  - cbn [bind]. destruct yaml as [q|]; [|reflexivity]. destruct (table_from_yaml_path w q) as [ty| |]; cbn [bind]; [|reflexivity..].
    rewrite (table_add_ext (sub o 2) (sub o' 2) _ (table_corr ty) (table_corr ty)); reflexivity.
Qed.
Lemma py_chanoma_order o o' w t neo pre rc file : py_chanoma_new o w t neo pre rc file = py_chanoma_new o' w t neo pre rc file.
Proof. rewrite !py_eq, (py_config_order o o'). reflexivity. Qed.
Lemma step_order o o' w k st : fst (py_step o w k st) = fst (py_step o' w k st).
Proof.
  destruct k as [pre csv yaml|i obj|t neo pre rc file|i s]; cbn [py_step].
  - rewrite (py_table_order o o'). reflexivity.
  - destruct (nth_error (py_tables st) i) as [t|]; [|reflexivity]. destruct obj as [items|]; [|reflexivity]. cbn [fst].
    unfold py_table_add. rewrite (table_add_ext o o' t (synth items) (synth items)); reflexivity.
  - destruct t as [i|]; [destruct (nth_error (py_tables st) i); [|reflexivity]|]; rewrite (py_chanoma_order o o'); reflexivity.
  - destruct (nth_error (py_chanomas st) i) as [c|]; [|reflexivity]. destruct (py_normalize o c s), (py_normalize o' c s); reflexivity.
Qed.
Fixpoint final (prog : list (world * py_call)) (st : py_state) : py_state :=
  match prog with [] => st | (w, k) :: r => final r (fst (py_step no_order w k st)) end.
Lemma run_app prog : forall o p2 st, exists o', py_run o (prog ++ p2) st = py_run o prog st ++ py_run o' p2 (final prog st).
Proof.
  induction prog as [|[w k] prog IH]; intros o p2 st; cbn [app py_run final]; [exists o; reflexivity|].
  pose proof (step_order (sub o 0) no_order w k st) as E. destruct (py_step (sub o 0) w k st) as [st' a]. cbn [fst] in E. subst st'.
  destruct (IH (sub o 1) p2 (fst (py_step no_order w k st))) as (o' & ->). exists o'. reflexivity.
Qed.
Lemma run_app_inv prog : forall o p2 st, exists o', py_run o' (prog ++ p2) st = py_run o' prog st ++ py_run o p2 (final prog st).
Proof.
  induction prog as [|[w k] prog IH]; intros o p2 st; cbn [app final]; [exists o; reflexivity|].
  destruct (IH o p2 (fst (py_step no_order w k st))) as (o2 & E).
  exists (fun p => match p with 0 :: r => no_order r | _ :: r => o2 r | [] => [] end). cbn [py_run].
  change (sub (fun p : list nat => match p with 0 :: r => no_order r | S _ :: r => o2 r | [] => [] end) 0) with no_order.
  change (sub (fun p : list nat => match p with 0 :: r => no_order r | S _ :: r => o2 r | [] => [] end) 1) with o2.
  destruct (py_step no_order w k st) as [st' b]. cbn [fst] in E. rewrite E. reflexivity.
Qed.
Lemma step_keeps o w k st : exists more, py_chanomas (fst (py_step o w k st)) = py_chanomas st ++ more.
Proof.
  assert (Z : exists more, py_chanomas st = py_chanomas st ++ more) by (exists []; rewrite app_nil_r; reflexivity).
  destruct k as [pre csv yaml|i obj|t neo pre rc file|i s]; cbn [py_step].
  - destruct (py_table_new o w pre csv yaml); exact Z.
  - destruct (nth_error (py_tables st) i) as [t|]; [|exact Z]. destruct obj as [items|]; exact Z.
  - destruct t as [i|]; [destruct (nth_error (py_tables st) i); [|exact Z]|];
      (destruct (py_chanoma_new _ _ _ _ _ _ _) as [c| |]; cbn [py_made fst py_chanomas]; [exists [c]; reflexivity|exact Z..]).
  - destruct (nth_error (py_chanomas st) i) as [c|]; [|exact Z]. destruct (py_normalize o c s); exact Z.
Qed.
Lemma final_keeps prog : forall st, exists more, py_chanomas (final prog st) = py_chanomas st ++ more.
Proof.
  induction prog as [|[w k] prog IH]; intros st; cbn [final]; [exists []; rewrite app_nil_r; reflexivity|].
  destruct (IH (fst (py_step no_order w k st))) as (m & ->). destruct (step_keeps no_order w k st) as (m' & ->).
  exists (m' ++ m). rewrite app_assoc. reflexivity.
Qed.
Lemma final_app p1 p2 st : final (p1 ++ p2) st = final p2 (final p1 st).
Proof. revert st; induction p1 as [|[w k] p1 IH]; intros st; cbn [app final]; [reflexivity|apply IH]. Qed.
Lemma last_text prog w i s a : (exists o, last (py_run o (prog ++ [(w, PyNormalize i s)]) py_start) PyNone = a) <->
  exists o, snd (py_step o w (PyNormalize i s) (final prog py_start)) = a.
Proof.
  split; intros (o & H).
  - destruct (run_app prog o [(w, PyNormalize i s)] py_start) as (o' & E). rewrite E in H. cbn [py_run] in H.
    exists (sub o' 0). destruct (py_step (sub o' 0) w (PyNormalize i s) (final prog py_start)) as [st' b].
    rewrite last_last in H. exact H.
  - destruct (run_app_inv prog (fun p => match p with _ :: r => o r | [] => [] end) [(w, PyNormalize i s)] py_start) as (o' & E).
    exists o'. rewrite E. cbn [py_run].
    change (sub (fun p : list nat => match p with _ :: r => o r | [] => [] end) 0) with o.
    destruct (py_step o w (PyNormalize i s) (final prog py_start)) as [st' b]. rewrite last_last. exact H.
Qed.
Lemma text_iff w i s st out : (exists o, snd (py_step o w (PyNormalize i s) st) = PyText out) <->
  exists c, nth_error (py_chanomas st) i = Some c /\ result c s out.
Proof.
  cbn [py_step]. destruct (nth_error (py_chanomas st) i) as [c|].
  - split.
    + intros (o & H). exists c. split; [reflexivity|]. exists o. change (normalize false o c s) with (py_normalize o c s).
      destruct (py_normalize o c s); cbn [snd] in H; [injection H as ->; reflexivity|discriminate H..].
    + intros (c' & E & (o & H)). injection E as <-. exists o. change (normalize false o c s) with (py_normalize o c s) in H. rewrite H. reflexivity.
  - split; [intros (o & H); discriminate H|intros (c & E & _); discriminate E].
Qed.
