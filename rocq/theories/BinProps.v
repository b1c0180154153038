(** Lemmas for C51 and C52. *)
From Verif Require Import Base BaseFacts StrOps Corr Table Charset Converter Neologdn ModifierKind PathModel Yaml File ChanomaModel
  Configuration Cli Python Spec CorrFacts ConverterFacts TableFacts ConverterProps CharsetFacts NeoFacts NeoProps PropsConverter PropsNeo PropsPipeline
  FileSpec PathSpec ConfigSpec BinSpec FileProps PathProps YamlProps ConfigProps.

Lemma load_files_order o o' w ps : forall i i', load_files o w i ps = load_files o' w i' ps.
Proof.
  induction ps as [|p ps IH]; intros i i'; cbn [load_files]; [reflexivity|].
  rewrite (load_file_order (sub o i) (sub o' i')), (IH (S i) (S i')). reflexivity.
Qed.
Lemma load_rc_order o o' w : load_rc o w = load_rc o' w.
Proof.
  unfold load_rc, configuration_load. destruct (file_paths w) as [ps| |]; cbn [bind]; [|reflexivity..].
  destruct ps; [reflexivity|]. rewrite (load_files_order o o' w _ 0 0). reflexivity.
Qed.
Lemma load_rc_constructible o w c : (forall s, w_env w = EnvUnicode s -> unicode s) -> load_rc o w = Ok c -> Forall constructible c.
Proof.
  intros U H. destruct (w_env w) as [|p|s] eqn:E.
  - apply C46_ok in H; [|intros s; congruence]. destruct H as (cs & F & ->). exact (proj1 (C46_effects_gen o w _ cs F)).
  - apply C46_ok in H; [|intros s; congruence]. destruct H as (cs & F & ->). exact (proj1 (C46_effects_gen o w _ cs F)).
  - unfold load_rc, configuration_load in H. apply bind_ok in H as (ps & _ & H). destruct ps as [|p ps].
    + injection H as <-. constructor.
    + apply bind_ok in H as (cs & H1 & H2). injection H2 as <-. apply load_files_ok in H1. exact (proj1 (C46_effects_gen o w _ cs H1)).
Qed.
Lemma use_preset_eq o c : use_preset o c = Ok (c ++ [MConv PRESET]).
Proof. unfold use_preset. rewrite all_characters_set_eq. reflexivity. Qed.
Lemma use_neologdn_eq o c : use_neologdn o c = Ok (c ++ [MNeo NEO]).
Proof. unfold use_neologdn. rewrite neologdn_new_eq. reflexivity. Qed.
Lemma realises_preset : realises (MConv PRESET) (pointwise preset_rel).
Proof. apply realises_conv, PRESET_get. Qed.
Definition asked (b : bool) (m : modifier) : list modifier := if b then [m] else [].
Lemma result_asked b m e : realises m e -> forall s out, result (asked b m) s out <-> if_asked b e s out.
Proof. intros [_ H] s out. destruct b; cbn [asked if_asked]; [apply H|apply result_nil]. Qed.
Lemma asked_constructible b m e : realises m e -> Forall constructible (asked b m).
Proof. intros [H _]. destruct b; cbn [asked]; [constructor; [exact H|constructor]|constructor]. Qed.

(** ** Command line *)
Lemma read_line_spec s : first_line s (trim_end_matches NEWLINE (read_line s)).
Proof.
  assert (N : forall l, ~ In NEWLINE l -> trim_start_matches NEWLINE l = l).
  { intros l H. destruct l as [|x l]; [reflexivity|]. cbn [trim_start_matches]. destruct (N.eqb_spec x NEWLINE) as [->|_]; [|reflexivity].
    destruct H; left; reflexivity. }
  assert (H : exists line, ~ In NEWLINE line /\ ((s = line /\ read_line s = line) \/ exists rest, s = line ++ [NEWLINE] ++ rest /\ read_line s = line ++ [NEWLINE])).
  { induction s as [|c s (line & Hn & IH)]; cbn [read_line].
    - exists []. split; [intros []|left; auto].
    - destruct (N.eqb_spec c NEWLINE) as [->|Hc].
      + exists []. split; [intros []|]. right. exists s. auto.
      + exists (c :: line). split; [intros [G|G]; [congruence|contradiction]|]. destruct IH as [[E1 E2]|(rest & E1 & E2)].
        * left. split; cbn; congruence.
        * right. exists rest. cbn. split; cbn in *; congruence. }
  destruct H as (line & Hn & H). assert (Hr : ~ In NEWLINE (rev line)) by (rewrite <- in_rev; exact Hn).
  assert (E : trim_end_matches NEWLINE (read_line s) = line).
  { unfold trim_end_matches. destruct H as [[_ ->]|(rest & _ & ->)].
    - rewrite (N _ Hr). apply rev_involutive.
    - rewrite rev_app_distr. cbn [rev app trim_start_matches]. rewrite N.eqb_refl, (N _ Hr). apply rev_involutive. }
  rewrite E. split; [exact Hn|]. destruct H as [[E1 _]|(rest & E1 & _)]; [left; exact E1|right; exists rest; exact E1].
Qed.
Lemma first_line_unique s l l' : first_line s l -> first_line s l' -> l = l'.
Proof.
  assert (A : forall a b r, ~ In 0x0A%N a -> a <> b ++ [0x0A%N] ++ r).
  { intros a b r H E. apply H. rewrite E. apply in_or_app. right. left. reflexivity. }
  intros [H1 H] [H2 H']. destruct H as [E|(r & E)], H' as [E'|(r' & E')]; try congruence.
  - subst s. destruct (A _ _ _ H1 E').
  - subst s. destruct (A _ _ _ H2 (eq_sym E')).
  - rewrite E in E'. clear E. revert l' H2 E'; induction l as [|x l IH]; intros l' H2 E'; destruct l' as [|y l']; [reflexivity| | |].
    + cbn in E'. injection E' as <- _. destruct H2; left; reflexivity.
    + cbn in E'. injection E' as -> _. destruct H1; left; reflexivity.
    + cbn in E'. injection E' as -> E'. f_equal. apply IH; [intros G; apply H1; right; exact G|intros G; apply H2; right; exact G|exact E'].
Qed.
Definition cli_modifiers (op : opts) (cfg : chanoma) : chanoma :=
  cfg ++ asked (o_preset op) (MConv PRESET) ++ asked (o_neologdn op) (MNeo NEO).
Lemma cli_modifiers_result op cfg s out : result (cli_modifiers op cfg) s out <->
  exists a b, result cfg s a /\ if_asked (o_preset op) (pointwise preset_rel) a b /\ if_asked (o_neologdn op) neologdn_result b out.
Proof.
  unfold cli_modifiers. rewrite result_app. split.
  - intros (a & H1 & H2). apply result_app in H2 as (b & H2 & H3). exists a, b. split; [exact H1|]. split.
    + apply (result_asked _ _ _ realises_preset), H2.
    + apply (result_asked _ _ _ realises_neo), H3.
  - intros (a & b & H1 & H2 & H3). exists a. split; [exact H1|]. apply result_app. exists b. split.
    + apply (result_asked _ _ _ realises_preset), H2.
    + apply (result_asked _ _ _ realises_neo), H3.
Qed.
Lemma cli_modifiers_constructible op cfg : Forall constructible cfg -> Forall constructible (cli_modifiers op cfg).
Proof.
  intros H. unfold cli_modifiers. rewrite !Forall_app. split; [exact H|]. split.
  - apply (asked_constructible _ _ _ realises_preset).
  - apply (asked_constructible _ _ _ realises_neo).
Qed.
Lemma cli_modifiers_nil op cfg : cli_modifiers op cfg = [] <-> cfg = [] /\ o_preset op = false /\ o_neologdn op = false.
Proof.
  unfold cli_modifiers. split.
  - intros H. apply app_eq_nil in H as [H1 H]. apply app_eq_nil in H as [H2 H3]. split; [exact H1|].
    split; [destruct (o_preset op)|destruct (o_neologdn op)]; try reflexivity; discriminate.
  - intros (-> & -> & ->). reflexivity.
Qed.
Lemma cli_eq o w op stdin cfg : load_rc o w = Ok cfg -> cli_main o w op stdin =
  match o_input op, stdin with
  | None, None => Ok StdinError
  | Some t, _ => r <- normalize (o_debug op) (sub o 3) (cli_modifiers op cfg) t ;; Ok (Printed r)
  | None, Some s => r <- normalize (o_debug op) (sub o 3) (cli_modifiers op cfg) (trim_end_matches NEWLINE (read_line s)) ;; Ok (Printed r)
  end.
Proof.
  intros H. unfold cli_main. rewrite (load_rc_order (sub o 0) o), H. cbn [bind]. unfold cli_modifiers.
  destruct (o_preset op), (o_neologdn op); rewrite ?use_preset_eq; cbn [bind asked]; rewrite ?use_neologdn_eq, ?app_nil_r, ?app_nil_l, ?app_assoc; cbn [bind];
    (destruct (o_input op); [reflexivity|]; destruct stdin; reflexivity).
Qed.
Lemma cli_fail o w op stdin : (forall cfg, load_rc o w <> Ok cfg) -> cli_main o w op stdin = Panic.
Proof.
  intros H. unfold cli_main. rewrite (load_rc_order (sub o 0) o). destruct (load_rc o w) as [c| |]; [destruct (H c eq_refl)|reflexivity..].
Qed.
(** The text is unique when there is one. *)
Lemma input_text_eq op stdin text : input_text op stdin text <->
  match o_input op, stdin with
  | Some t, _ => text = t
  | None, Some s => text = trim_end_matches NEWLINE (read_line s)
  | None, None => False
  end.
Proof.
  unfold input_text. destruct (o_input op) as [t|].
  - split; [intros [E|[E _]]; congruence|intros ->; left; reflexivity].
  - destruct stdin as [s|].
    + split.
      * intros [E|(_ & s' & E & L)]; [discriminate|]. injection E as <-. eapply first_line_unique; [exact L|apply read_line_spec].
      * intros ->. right. split; [reflexivity|]. exists s. split; [reflexivity|apply read_line_spec].
    + split; [|intros []]. intros [E|(_ & s & E & _)]; discriminate.
Qed.
Lemma cli_text o w op stdin cfg text : load_rc o w = Ok cfg -> input_text op stdin text ->
  cli_main o w op stdin = (r <- normalize (o_debug op) (sub o 3) (cli_modifiers op cfg) text ;; Ok (Printed r)).
Proof.
  intros H T. rewrite (cli_eq o w op stdin cfg H). apply input_text_eq in T. destruct (o_input op); [subst; reflexivity|].
  destruct stdin; [subst; reflexivity|contradiction].
Qed.
Lemma input_text_cases op stdin : (exists text, input_text op stdin text) \/ (o_input op = None /\ stdin = None /\ forall text, ~ input_text op stdin text).
Proof.
  destruct (o_input op) as [t|] eqn:E; [left; exists t; left; exact E|]. destruct stdin as [s|].
  - left. eexists. right. split; [exact E|]. exists s. split; [reflexivity|apply read_line_spec].
  - right. split; [reflexivity|]. split; [reflexivity|]. intros t H. apply input_text_eq in H. rewrite E in H. exact H.
Qed.
Definition good_env (w : world) : Prop := forall s, w_env w = EnvUnicode s -> unicode s.
Lemma cli_normal o w op stdin cfg text : good_env w -> load_rc o w = Ok cfg -> input_text op stdin text ->
  exists out, normalize false (sub o 3) (cli_modifiers op cfg) text = Ok out /\
    cli_main o w op stdin = if o_debug op then (if cli_modifiers op cfg then Panic else Ok (Printed out)) else Ok (Printed out).
Proof.
  intros U H T. rewrite (cli_text o w op stdin cfg text H T).
  destruct (C32_lemma (sub o 3) (cli_modifiers op cfg) text (cli_modifiers_constructible op cfg (load_rc_constructible o w cfg U H))) as (out & E1 & E2).
  exists out. split; [exact E1|]. destruct (o_debug op); [rewrite E2|rewrite E1; reflexivity]. destruct (cli_modifiers op cfg); reflexivity.
Qed.

(** ** Python *)
Lemma from_config_constructible o w p c : from_config_file o w p = Ok c -> Forall constructible c.
Proof. intros H. exact (proj1 (C44_ok o w p c H)). Qed.
Definition py_config (o : sched) (w : world) (rc : bool) (file : option path) : outcome chanoma :=
  match file with Some p => from_config_file o w p | None => if rc then load_rc o w else Ok chanoma_new end.
Lemma py_config_order o o' w rc file : py_config o w rc file = py_config o' w rc file.
Proof. unfold py_config. destruct file; [apply load_file_order|]. destruct rc; [apply load_rc_order|reflexivity]. Qed.
Definition add_opt (t : option table) (c : chanoma) : outcome chanoma := match t with Some t => add_table t c | None => Ok c end.
Lemma py_eq o w t neo pre rc file : py_chanoma_new o w t neo pre rc file =
  (c <- py_config o w rc file ;; c <- add_opt t c ;; Ok (c ++ asked pre (MConv PRESET) ++ asked neo (MNeo NEO))).
Proof.
  change (py_chanoma_new o w t neo pre rc file) with
    (c <- py_config (sub o 0) w rc file ;; c <- add_opt t c ;; c <- (if pre then use_preset (sub o 1) c else Ok c) ;;
     if neo then use_neologdn (sub o 2) c else Ok c).
  rewrite (py_config_order (sub o 0) o). destruct (py_config o w rc file) as [c| |]; cbn [bind]; [|reflexivity..].
  destruct (add_opt t c) as [c'| |]; cbn [bind]; [|reflexivity..].
  assert (E1 : (if pre then use_preset (sub o 1) c' else Ok c') = Ok (c' ++ asked pre (MConv PRESET))).
  { destruct pre; cbn [asked]; [apply use_preset_eq|rewrite app_nil_r; reflexivity]. }
  rewrite E1. cbn [bind]. rewrite app_assoc. destruct neo; cbn [asked]; [apply use_neologdn_eq|rewrite app_nil_r; reflexivity].
Qed.
Definition table_effect (t : option table) : effect :=
  match t with Some t => pointwise (last_match (table_items t)) | None => identity end.
Lemma add_opt_ok t c c' : add_opt t c = Ok c' -> exists ms, c' = c ++ ms /\ Forall constructible ms /\
  forall s out, result ms s out <-> table_effect t s out.
Proof.
  destruct t as [t|]; cbn [add_opt table_effect].
  - intros H. destruct (call_ok no_order (AddTable t) c c' H) as (m & E & Hm & R). exists [m]. split; [exact E|].
    split; [constructor; [exact Hm|constructor]|exact R].
  - intros H. injection H as <-. exists []. split; [symmetry; apply app_nil_r|]. split; [constructor|apply result_nil].
Qed.
Lemma add_opt_cases t c :
  (exists c', add_opt t c = Ok c' /\ forall tb, t = Some tb -> no_empty_string (table_items tb)) \/
  (add_opt t c = Panic /\ exists tb, t = Some tb /\ ~ no_empty_string (table_items tb)).
Proof.
  destruct t as [t|]; cbn [add_opt]; [|left; eexists; split; [reflexivity|]; discriminate].
  unfold add_table. rewrite from_tables_one. destruct (forallb nonempty_item (table_items t)) eqn:E; cbn [bind].
  - left. eexists. split; [reflexivity|]. intros tb Et. injection Et as <-. apply no_empty_iff, E.
  - right. split; [reflexivity|]. exists t. split; [reflexivity|]. intros H. apply no_empty_iff in H. congruence.
Qed.

(** ** Python tables *)
Lemma ALL_items_pairs : ALL_items = map (fun p => Item [fst p] [snd p]) (pairs_of ALL_items).
Proof. vm_compute. reflexivity. Qed.
Lemma pairs_ALL_rel c t : In (c, t) (pairs_of ALL_items) <-> preset_rel c t.
Proof. rewrite <- preset_pairs_rel. apply pairs_same; vm_compute; reflexivity. Qed.
Lemma ALL_items_rel it : In it ALL_items <-> preset_item it.
Proof.
  rewrite ALL_items_pairs, in_map_iff. split.
  - intros ([c t] & <- & H). apply pairs_ALL_rel in H. exists c, t. auto.
  - intros (c & t & H & ->). exists (c, t). split; [reflexivity|]. apply pairs_ALL_rel, H.
Qed.
Lemma table_add_In o t c it : In it (table_items (table_add o t c)) <-> In it (table_items t) \/ In it (c (sub o 1)).
Proof. unfold table_items, table_add. cbn [t_corr]. rewrite corr_add_assign_usort, usort_In, in_app_iff. reflexivity. Qed.
Lemma table_add_strict o t c : ordered item_lt (table_items (table_add o t c)).
Proof. unfold table_items, table_add. cbn [t_corr]. rewrite corr_add_assign_usort. apply usort_strict. Qed.
Lemma py_table_ok o w pre csv yaml t : py_table_new o w pre csv yaml = Ok t ->
  exists tc ty, (forall p, csv = Some p -> table_from_csv_path w p = Ok tc) /\ (forall p, yaml = Some p -> table_from_yaml_path w p = Ok ty) /\
    ordered item_lt (table_items t) /\
    forall it, In it (table_items t) <-> (pre = true /\ preset_item it) \/ (csv <> None /\ In it (table_items tc)) \/ (yaml <> None /\ In it (table_items ty)).
Proof.
  unfold py_table_new. intros H.
  set (t0 := if pre then builder_preset (sub o 0) table_new else table_new) in *.
  assert (H0 : ordered item_lt (table_items t0) /\ forall it, In it (table_items t0) <-> pre = true /\ preset_item it).
  { unfold t0. destruct pre.
    - split; [apply table_add_strict|]. intros it. unfold builder_preset. rewrite table_add_In, ALL_eq, ALL_items_rel. cbn. intuition.
    - split; [exact I|]. intros it. cbn. intuition discriminate. }
  clearbody t0. destruct H0 as [S0 I0]. apply bind_ok in H as (t1 & H1 & H2).
  assert (H3 : exists tc, (forall p, csv = Some p -> table_from_csv_path w p = Ok tc) /\ ordered item_lt (table_items t1) /\
    forall it, In it (table_items t1) <-> (pre = true /\ preset_item it) \/ (csv <> None /\ In it (table_items tc))).
  { destruct csv as [p|].
    - unfold add_from_csv in H1. apply bind_ok in H1 as (tc & Ec & H1). injection H1 as <-. exists tc.
      split; [intros q E; injection E as <-; exact Ec|]. split; [apply table_add_strict|]. intros it. rewrite table_add_In, I0. unfold table_corr, synth, table_items. intuition discriminate.
    - injection H1 as <-. exists table_new. split; [discriminate|]. split; [exact S0|]. intros it. rewrite I0. intuition congruence. }
  destruct H3 as (tc & Hc & S1 & I1).
  destruct yaml as [p|].
  - unfold add_from_yaml in H2. apply bind_ok in H2 as (ty & Ey & H2). injection H2 as <-. exists tc, ty.
    split; [exact Hc|]. split; [intros q E; injection E as <-; exact Ey|]. split; [apply table_add_strict|].
    intros it. rewrite table_add_In, I1. unfold table_corr, synth, table_items. intuition discriminate.
  - injection H2 as <-. exists tc, table_new. split; [exact Hc|]. split; [discriminate|]. split; [exact S1|].
    intros it. rewrite I1. intuition congruence.
Qed.
Lemma py_table_fail o w pre csv yaml :
  (forall p, csv = Some p -> (forall e, table_from_csv_path w p = Err e -> py_table_new o w pre csv yaml = Err e) /\
     (table_from_csv_path w p = Panic -> py_table_new o w pre csv yaml = Panic)) /\
  ((forall p, csv = Some p -> exists tc, table_from_csv_path w p = Ok tc) ->
     (forall p, yaml = Some p -> (forall e, table_from_yaml_path w p = Err e -> py_table_new o w pre csv yaml = Err e) /\
       (table_from_yaml_path w p = Panic -> py_table_new o w pre csv yaml = Panic)) /\
     ((forall p, yaml = Some p -> exists ty, table_from_yaml_path w p = Ok ty) -> exists t, py_table_new o w pre csv yaml = Ok t)).
Proof.
  unfold py_table_new, add_from_csv, add_from_yaml. split.
  - intros p ->. split; [intros e E|intros E]; rewrite E; reflexivity.
  - intros Hc.
    set (x := match csv with Some p => _ | None => _ end).
    assert (Hx : exists t1, x = Ok t1).
    { unfold x. destruct csv as [p|]; [|eauto]. destruct (Hc p eq_refl) as (tc & E). rewrite E. cbn [bind]. eauto. }
    destruct Hx as (t1 & Ex). rewrite Ex. cbn [bind]. split.
    + intros p ->. split; [intros e E|intros E]; rewrite E; reflexivity.
    + intros Hy. destruct yaml as [p|]; [|eauto]. destruct (Hy p eq_refl) as (ty & E). rewrite E. cbn [bind]. eauto.
Qed.
