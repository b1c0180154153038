(** Property C92: programs using the library. *)
From Coq Require Import String.
From Verif Require Import Base BaseFacts StrOps Corr Table Converter Position ModifierKind PathModel Yaml File ChanomaModel Configuration RustProgram
  Spec CharsetFacts PropsConverter PropsPipeline FileSpec PathSpec ConfigSpec BinSpec PropsFile PropsConfig BinProps PropsPy RustSpec RustProps
  FileProps PathProps ConfigProps PropsErrors PropsTableFile PyProgram.
Local Open Scope string_scope.
Local Open Scope list_scope.

(** Every run of a program gives answers the description allows, ... *)
Theorem C92_run_allowed : forall o prog, r_sane prog -> r_allowed_run (RView [] []) prog (r_run o prog r_start).
Proof. intros o prog G. apply run_sound_r; [exact G|apply r_sim_start]. Qed.
Print Assumptions C92_run_allowed.
(** ... and all allowed answers occur. *)
Theorem C92_all_possible : forall prog answers, r_sane prog -> r_allowed_run (RView [] []) prog answers ->
  exists o, same_run prog answers (r_run o prog r_start).
Proof. intros prog answers G H. eapply run_complete_r; [exact G|apply r_sim_start|exact H]. Qed.
Print Assumptions C92_all_possible.
(** The description leaves nothing open but the choice among the results of a normalisation: what the objects are after a
    call is determined, and so is every other answer. *)
Theorem C92_determined : forall v w dbg k a b v1 v2, r_allowed v w dbg k a v1 -> r_allowed v w dbg k b v2 ->
  v1 = v2 /\ ((forall n s, k <> RNormalize n s /\ k <> RPositions n s) -> r_same k a b).
Proof.
  intros v w dbg k a b v1 v2 H H'. destruct (det _ _ _ _ _ _ _ _ H H') as [E Q]. split; [exact E|]. intros N. apply Q.
  destruct k as [| | | | | | | | | | | | | | | | | | | | | |n s|n s]; cbn [asks]; try tauto; intros _; destruct (N n s); congruence.
Qed.
Print Assumptions C92_determined.
(** A call that answers anything but [RDone] leaves all objects as they were. *)
Theorem C92_failure_changes_nothing : forall v w dbg k a v', r_allowed v w dbg k a v' -> a <> RDone -> v' = v.
Proof. intros v w dbg k a v' H N. destruct H; congruence. Qed.
Print Assumptions C92_failure_changes_nothing.
(** What an existing object answers depends on no call, change of files or log level in between, except methods that change
    this object. *)
Theorem C92_other_calls_irrelevant : forall prog more w w' dbg k a, questions k ->
  (forall i, In i (tables_named k) -> Forall (fun x => table_modified (snd x) <> Some i) more) ->
  (forall n, In n (chanomas_named k) -> Forall (fun x => chanoma_modified (snd x) <> Some n) more) ->
  (exists o, last (r_run o (prog ++ [(w, dbg, k)]) r_start) RDone <> RNoObject) ->
  (exists o, last (r_run o (prog ++ [(w, dbg, k)]) r_start) RDone = a) <->
  (exists o, last (r_run o (prog ++ more ++ [(w', dbg, k)]) r_start) RDone = a).
Proof.
  intros prog more w w' dbg k a Q T C (o0 & X). rewrite app_assoc, !last_answer, r_final_app.
  assert (Y : exists o, snd (r_step o w dbg k (r_final prog r_start)) <> RNoObject).
  { assert (Z : exists o, last (r_run o (prog ++ [(w, dbg, k)]) r_start) RDone = last (r_run o0 (prog ++ [(w, dbg, k)]) r_start) RDone) by eauto.
    apply last_answer in Z as (o & Z). exists o. rewrite Z. exact X. }
  clear X. destruct Y as (o & Y).
  assert (E : forall o, snd (r_step o w dbg k (r_final prog r_start)) = snd (r_step o w' dbg k (r_final more (r_final prog r_start)))).
  { intros o'. destruct k as [| | | | | | | | | | | |i| | | | | | | | | |n s|n s]; cbn [questions] in Q; try contradiction; cbn [r_step] in *;
      unfold on_table, on_chanoma in *.
    - destruct (nth_error (r_tables (r_final prog r_start)) i) as [t|] eqn:Et; [|destruct (Y eq_refl)].
      rewrite (final_keeps_table more _ i t (T i (or_introl eq_refl)) Et). reflexivity.
    - destruct (nth_error (r_chanomas (r_final prog r_start)) n) as [c|] eqn:Ec; [|destruct (Y eq_refl)].
      rewrite (final_keeps_chanoma more _ n c (C n (or_introl eq_refl)) Ec). reflexivity.
    - destruct (nth_error (r_chanomas (r_final prog r_start)) n) as [c|] eqn:Ec; [|destruct (Y eq_refl)].
      rewrite (final_keeps_chanoma more _ n c (C n (or_introl eq_refl)) Ec). reflexivity. }
  split; intros (o' & H); exists o'; [rewrite <- E|rewrite E]; exact H.
Qed.
Print Assumptions C92_other_calls_irrelevant.
(** Why reading fails: the errors, ... *)
Definition reads_csv (w : world) (k : r_call) (q : path) : Prop :=
  (exists p, k = RTableCsv p /\ w_canonicalize w p = Some q) \/ exists i, k = RAddCsv i q.
Definition reads_yaml (w : world) (k : r_call) (q : path) : Prop :=
  (exists p, k = RTableYaml p /\ w_canonicalize w p = Some q) \/ exists i, k = RAddYaml i q.
Inductive read_error (w : world) : r_call -> error -> Prop :=
| re_path k p : k = RTableCsv p \/ k = RTableYaml p -> w_canonicalize w p = None -> read_error w k IoError
| re_csv k q : reads_csv w k q -> csv_unreadable w q -> read_error w k CsvFileLoadError
| re_io k q : reads_yaml w k q -> w_yaml w q = None -> read_error w k IoError
| re_yaml k q : reads_yaml w k q -> w_yaml w q = Some None -> read_error w k YamlFileLoadError
| re_config p e : config_error w p e -> read_error w (RConfig p) e
| re_rc_env s : w_env w = EnvUnicode s -> w_is_file w s = false \/ (exists x, has_extension s x /\ x <> lit "csv" /\ x <> lit "yaml") ->
    read_error w RLoadRc (RcFileLoadError s)
| re_rc p e : w_is_file w p = true -> config_error w p e -> no_extension_error e -> read_error w RLoadRc e.
(** ... and the panics: the file could be read, but does not describe what it should.  (No file has a CSV record without
    fields, C70.) *)
Definition config_panics (w : world) (p : path) : Prop :=
  (forall effs, ~ file_stages w p effs) /\
  ((has_extension p (lit "csv") /\ exists recs, w_csv w p = Some recs) \/ (is_yaml p /\ exists data, w_yaml w p = Some (Some data))).
Inductive read_panic (w : world) : r_call -> Prop :=
| rp_csv k q recs : reads_csv w k q -> w_csv w q = Some recs -> In (CsvFields []) (tl recs) -> read_panic w k
| rp_yaml k q data : reads_yaml w k q -> w_yaml w q = Some (Some data) -> (forall items, ~ items_described data items) -> read_panic w k
| rp_config p : config_panics w p -> read_panic w (RConfig p)
| rp_rc_env s : w_env w = EnvUnicode s -> w_is_file w s = true -> (forall x, ~ has_extension s x) -> read_panic w RLoadRc
| rp_rc p : w_is_file w p = true -> config_panics w p -> read_panic w RLoadRc.
Lemma csv_table_panic w q : table_from_csv_path w q = Panic -> exists recs, w_csv w q = Some recs /\ In (CsvFields []) (tl recs).
Proof.
  intros H. destruct (w_csv w q) as [recs|] eqn:E; [|unfold table_from_csv_path in H; rewrite E in H; discriminate].
  exists recs. split; [reflexivity|].
  destruct (existsb (fun r => match r with CsvFields [] => true | _ => false end) (tl recs)) eqn:X.
  - apply existsb_exists in X as ([[|f fs]| |] & I & X); try discriminate. exact I.
  - exfalso. destruct (C39_fail w q) as [F|(t & F)]; [|congruence|congruence]. intros r Hr I. rewrite E in Hr. injection Hr as <-.
    assert (existsb (fun r => match r with CsvFields [] => true | _ => false end) (tl recs) = true); [|congruence].
    apply existsb_exists. exists (CsvFields []). auto.
Qed.
Lemma yaml_table_panic w q : table_from_yaml_path w q = Panic ->
  exists data, w_yaml w q = Some (Some data) /\ forall items, ~ items_described data items.
Proof.
  intros H. destruct (C42_fail w q) as (A & B & _). destruct (w_yaml w q) as [[data|]|] eqn:E.
  - exists data. split; [reflexivity|]. intros items D. assert (X : exists t, table_from_yaml_path w q = Ok t); [|destruct X; congruence].
    exists (Table items (OriginFile q)). apply C42_iff. exists data. auto.
  - rewrite (B eq_refl) in H. discriminate.
  - rewrite (A eq_refl) in H. discriminate.
Qed.
Lemma config_panic o w p : from_config_file o w p = Panic -> config_panics w p.
Proof.
  intros H. split.
  - intros effs F. destruct (stages_config o w p effs F) as (c & E). congruence.
  - destruct (ext_from_path p) as [[|]|e|] eqn:X.
    + left. apply ext_csv_iff in X. split; [exact X|]. destruct (w_csv w p) as [recs|] eqn:E; [eauto|]. exfalso.
      assert (T : table_from_csv_path w p = Err CsvFileLoadError) by (unfold table_from_csv_path; rewrite E; reflexivity).
      rewrite (proj1 (C44_csv_failures o w p X) _ T) in H. discriminate.
    + right. apply ext_yaml_iff in X. split; [exact X|]. destruct (C42_fail w p) as (A & B & _). destruct (w_yaml w p) as [[data|]|]; [eauto|exfalso..].
      * rewrite (proj1 (C44_yaml_failures o w p X) _ (B eq_refl)) in H. discriminate.
      * rewrite (proj1 (C44_yaml_failures o w p X) _ (A eq_refl)) in H. discriminate.
    + rewrite (C44_extension_failures o w p e X) in H. discriminate.
    + destruct (ext_from_path_cases p) as [(x & X' & U)|[(x & X' & U)|N]].
      * exfalso. destruct (list_eq_dec N.eq_dec x (lit "csv")) as [->|N1]; [apply ext_csv_iff in X'; congruence|].
        destruct (list_eq_dec N.eq_dec x (lit "yaml")) as [->|N2]; [assert (Y : ext_from_path p = Ok Yaml) by (apply ext_yaml_iff; auto); congruence|].
        destruct (list_eq_dec N.eq_dec x (lit "yml")) as [->|N3]; [assert (Y : ext_from_path p = Ok Yaml) by (apply ext_yaml_iff; auto); congruence|].
        destruct (C48_errors p) as (_ & _ & E3). rewrite (E3 x X' U N1 N2 N3) in X. discriminate.
      * rewrite (ext_path_nonunicode p x X' U) in X. discriminate.
      * rewrite (ext_path_none p N) in X. discriminate.
Qed.
Lemma load_files_panic o w ps : forall i, load_files o w i ps = Panic -> exists p, In p ps /\ from_config_file o w p = Panic.
Proof.
  induction ps as [|p ps IH]; intros i; cbn [load_files]; [discriminate|]. rewrite (load_file_order (sub o i) o).
  destruct (load_file_with_ext o w p) as [ms|e'|] eqn:E; cbn [bind]; intros H; [|discriminate|].
  - destruct (load_files o w (S i) ps) as [r|e'|] eqn:E2; cbn [bind] in H; [discriminate|discriminate|].
    destruct (IH _ E2) as (q & Q1 & Q2). exists q. split; [right; exact Q1|exact Q2].
  - exists p. split; [left; reflexivity|exact E].
Qed.
Lemma rc_panic o w : (forall s, w_env w = EnvUnicode s -> unicode s) -> load_rc o w = Panic -> read_panic w RLoadRc.
Proof.
  intros U H. assert (D : (exists s, w_env w = EnvUnicode s) \/ chanomarc_unset w).
  { destruct (w_env w) as [|q|s] eqn:E; [right|right|left; eauto]; intros s; congruence. }
  destruct D as [(s & E)|N].
  - destruct (C45_lemma o w s E (U s E)) as (C1 & C2 & C3 & C4). destruct (w_is_file w s) eqn:F; [|rewrite (C1 eq_refl) in H; discriminate].
    destruct (extension s) as [x|] eqn:X.
    + apply extension_iff in X. destruct (list_eq_dec N.eq_dec x (lit "csv")) as [->|N1].
      { rewrite (C2 eq_refl (or_introl X)) in H. apply (rp_rc w s F), (config_panic o), H. }
      destruct (list_eq_dec N.eq_dec x (lit "yaml")) as [->|N2].
      { rewrite (C2 eq_refl (or_intror X)) in H. apply (rp_rc w s F), (config_panic o), H. }
      rewrite (C3 eq_refl x X N1 N2) in H. discriminate.
    + apply (rp_rc_env w s E F). apply extension_None, X.
  - rewrite (load_rc_files o w N) in H. destruct (load_files o w 0 (found w)) as [r|e'|] eqn:L; cbn [bind] in H; [discriminate|discriminate|].
    apply load_files_panic in L as (p & P1 & P2). apply found_ext in P1 as [F X]. apply (rp_rc w p F), (config_panic o), P2.
Qed.
Theorem C92_failure_kinds : forall o w dbg k st, (forall s, w_env w = EnvUnicode s -> unicode s) -> reads_files k ->
  (forall e, snd (r_step o w dbg k st) = RErr e -> read_error w k e) /\ (snd (r_step o w dbg k st) = RPanic -> read_panic w k).
Proof.
  intros o w dbg k st U R.
  assert (M : forall A (x : outcome A) keep, (forall e, snd (r_made st x keep) = RErr e -> x = Err e) /\ (snd (r_made st x keep) = RPanic -> x = Panic)).
  { intros A x keep. destruct x; cbn [r_made snd]; split; intros; try discriminate; congruence. }
  destruct k as [| |p|p| | | | |i p|i p| | | | | | | | |p| | | | |]; cbn [reads_files] in R; try contradiction; cbn [r_step]; unfold new_table, set_table, new_chanoma, on_table.
  - destruct (M _ (builder_from_csv_path w p) (fun t => RState (r_tables st ++ [t]) (r_chanomas st))) as [M1 M2].
    split; [intros e H; apply M1 in H|intros H; apply M2 in H]; clear M1 M2; unfold builder_from_csv_path, canonicalize in H;
      destruct (w_canonicalize w p) as [q|] eqn:E; cbn [bind] in H.
    + apply csv_table_err in H as [-> H]. apply (re_csv w _ q); [left; eauto|exact H].
    + injection H as <-. apply (re_path w _ p); auto.
    + apply csv_table_panic in H as (recs & H1 & H2). apply (rp_csv w _ q recs); [left; eauto|exact H1|exact H2].
    + discriminate.
  - destruct (M _ (builder_from_yaml_path w p) (fun t => RState (r_tables st ++ [t]) (r_chanomas st))) as [M1 M2].
    split; [intros e H; apply M1 in H|intros H; apply M2 in H]; clear M1 M2; unfold builder_from_yaml_path, canonicalize in H;
      destruct (w_canonicalize w p) as [q|] eqn:E; cbn [bind] in H.
    + apply yaml_table_err in H as [[-> H]|[-> H]]; [apply (re_io w _ q)|apply (re_yaml w _ q)]; try exact H; left; eauto.
    + injection H as <-. apply (re_path w _ p); auto.
    + apply yaml_table_panic in H as (data & H1 & H2). apply (rp_yaml w _ q data); [left; eauto|exact H1|exact H2].
    + discriminate.
  - destruct (nth_error (r_tables st) i) as [t|]; [|split; discriminate].
    destruct (M _ (add_from_csv o w p t) (fun t => RState (update i t (r_tables st)) (r_chanomas st))) as [M1 M2].
    destruct (C58_add_failures o w p t) as (A & B & _). split; [intros e H; apply M1, A in H|intros H; apply M2, B in H]; clear M1 M2.
    + apply csv_table_err in H as [-> H]. apply (re_csv w _ p); [right; eauto|exact H].
    + apply csv_table_panic in H as (recs & H1 & H2). apply (rp_csv w _ p recs); [right; eauto|exact H1|exact H2].
  - destruct (nth_error (r_tables st) i) as [t|]; [|split; discriminate].
    destruct (M _ (add_from_yaml o w p t) (fun t => RState (update i t (r_tables st)) (r_chanomas st))) as [M1 M2].
    destruct (C58_add_failures o w p t) as (_ & _ & A & B). split; [intros e H; apply M1, A in H|intros H; apply M2, B in H]; clear M1 M2.
    + apply yaml_table_err in H as [[-> H]|[-> H]]; [apply (re_io w _ p)|apply (re_yaml w _ p)]; try exact H; right; eauto.
    + apply yaml_table_panic in H as (data & H1 & H2). apply (rp_yaml w _ p data); [right; eauto|exact H1|exact H2].
  - destruct (M _ (load_rc o w) (fun c => RState (r_tables st) (r_chanomas st ++ [c]))) as [M1 M2].
    split; [intros e H; apply M1 in H|intros H; apply M2 in H]; clear M1 M2.
    + apply C67_load_rc_errors in H; [|exact U]. destruct H as [(s & -> & E & D)|(E & p & F & C)]; [apply re_rc_env; assumption|eapply re_rc; eassumption].
    + apply (rc_panic o); assumption.
  - destruct (M _ (from_config_file o w p) (fun c => RState (r_tables st) (r_chanomas st ++ [c]))) as [M1 M2].
    split; [intros e H; apply M1 in H|intros H; apply M2 in H]; clear M1 M2.
    + apply re_config, (C67_config_file_errors o), H.
    + apply rp_config, (config_panic o), H.
Qed.
Print Assumptions C92_failure_kinds.
(** "Removing nothing from a table changes nothing" is false: it sorts the table. *)
Definition za : list item := [Item (lit "a") (lit "z"); Item (lit "a") (lit "b")].
Definition at_rest (ks : list r_call) : list (world * bool * r_call) := map (fun k => (a_is "b", false, k)) ks.
Theorem C92_removing_nothing_refuted : exists prog o, r_sane prog /\
  r_run o prog r_start = [RDone; RDone; RText (lit "b"); RDone; RDone; RText (lit "z")] /\
  map snd prog = [RTableOf za; RFromTable 0; RNormalize 0 (lit "a"); RRemove 0 []; RFromTable 0; RNormalize 1 (lit "a")].
Proof.
  exists (at_rest [RTableOf za; RFromTable 0; RNormalize 0 (lit "a"); RRemove 0 []; RFromTable 0; RNormalize 1 (lit "a")]), no_order.
  split; [repeat constructor; discriminate|]. split; [vm_compute; reflexivity|reflexivity].
Qed.
Print Assumptions C92_removing_nothing_refuted.

Definition r_demo : list (world * bool * r_call) :=
  at_rest [RTableNew; RAdd 0 za; RItems 0; RTableCsv ex_path; RAddTable 0 1; RItems 0; RRemoveTable 0 1; RItems 0; RTableClone 0;
           RAdd 1 [Item [] []]; RFromTable 1; RFromTable 0; RUseTable 0 1; RNormalize 0 (lit "aa"); RRemove 0 za; RItems 0;
           RNormalize 0 (lit "aa"); RPositions 0 (lit "xa"); RNew] ++
  [ (a_is "b", true, RNormalize 1 (lit "a")); (a_is "b", false, RNormalize 1 (lit "a")); (a_is "b", false, RNormalize 2 (lit "a"));
    (a_is "b", false, RConfig (lit "noextension")); (a_is "b", false, RUseNeologdn 1); (a_is "b", true, RNormalize 1 (lit " a ")) ].
Example C92_case : r_sane r_demo /\ r_run no_order r_demo r_start =
  [RDone; RDone; RItemsAre (rev za); RDone; RDone; RItemsAre (rev za); RDone; RItemsAre [Item (lit "a") (lit "z")]; RDone;
   RDone; RPanic; RDone; RPanic; RText (lit "zz"); RDone; RItemsAre []; RText (lit "zz");
   RRecords [Record (MConv [(97%N, 122%N)]) (lit "xz") [Pos (lit "a") (lit "z") 1 1 1 1]]; RDone;
   RPanic; RText (lit "a"); RNoObject; RErr (FileExtensionNotFoundInPath (lit "noextension")); RDone; RText (lit "a")].
Proof. split; [repeat constructor; discriminate|]. vm_compute. reflexivity. Qed.
